(** C123: the predefined car contours and the goal rectangle. *)
From Coq Require Import Reals List Lra Lia.
From Verif Require Import Base_Real Base_Geom Model_Line Model_Shape Spec_Shape Model_StdShapes Spec_StdShapes Props_Shape.
Import ListNotations.
Local Open Scope R_scope.

(** Case analysis on the (finitely many) members and edges of a literal ring. *)
Lemma edge_cons x y l a b : edge (x :: y :: l) a b -> (x = a /\ y = b) \/ edge (y :: l) a b.
Proof.
  intros (l1 & l2 & E). destruct l1 as [|z l1]; cbn in E.
  - left. injection E. intros _ Hb Ha. split; assumption.
  - right. injection E. intros E' _. exists l1, l2. exact E'.
Qed.
Lemma edge_one x a b : edge [x] a b -> False.
Proof. intros (l1 & l2 & E). destruct l1 as [|z [|w l1]]; discriminate E. Qed.

(** All corners are right of one edge. *)
Fixpoint right_of (a b : pt) (l : list pt) : Prop :=
  match l with [] => True | p :: r => cross3 a b p <= 0 /\ right_of a b r end.
Fixpoint all_right (ring l : list pt) : Prop :=
  match l with
  | a :: ((b :: _) as r) => right_of a b ring /\ all_right ring r
  | _ => True
  end.
Lemma right_of_in a b l p : right_of a b l -> In p l -> cross3 a b p <= 0.
Proof. induction l as [|q l IH]; cbn; intros H I; [contradiction|]. destruct H as [H1 H2]. destruct I as [I|I]; [subst; exact H1|exact (IH H2 I)]. Qed.
Lemma all_right_edge ring l : all_right ring l -> forall a b p, edge l a b -> In p ring -> cross3 a b p <= 0.
Proof.
  induction l as [|x l IH]; intros H a b p E I.
  - destruct E as (l1 & l2 & E). destruct l1; discriminate E.
  - destruct l as [|y l]; [destruct (edge_one _ _ _ E)|]. destruct H as [H1 H2].
    destruct (edge_cons _ _ _ _ _ E) as [[-> ->]|E']; [exact (right_of_in _ _ _ _ H1 I)|exact (IH H2 _ _ _ E' I)].
Qed.

(** Scaling x by sl and y by sw multiplies every cross product by sl * sw. *)
Definition scaled (sl sw : R) (p : pt) : pt := (fst p * sl, snd p * sw).
Lemma cross3_scaled sl sw a b p : cross3 (scaled sl sw a) (scaled sl sw b) (scaled sl sw p) = cross3 a b p * (sl * sw).
Proof. unfold cross3, scaled. cbn [fst snd]. ring. Qed.
Lemma edge_map f l a b : edge (map f l) a b -> exists a' b', edge l a' b' /\ a = f a' /\ b = f b'.
Proof.
  intros (l1 & l2 & E). apply map_eq_app in E. destruct E as (m1 & m2 & E1 & E2 & E3).
  destruct m2 as [|a' [|b' m2]]; try discriminate E3. cbn in E3. injection E3. intros _ Hb Ha.
  exists a', b'. split; [exists m1, m2; exact E1|]. split; symmetry; assumption.
Qed.
Lemma map_edge (f : pt -> pt) l a b : edge l a b -> edge (map f l) (f a) (f b).
Proof. intros (l1 & l2 & E). exists (map f l1), (map f l2). rewrite E, map_app. reflexivity. Qed.
Lemma scaled_inj sl sw p q : 0 < sl -> 0 < sw -> scaled sl sw p = scaled sl sw q -> p = q.
Proof.
  intros Hl Hw E. unfold scaled in E. injection E. intros E2 E1.
  apply Rmult_eq_reg_r in E1; [|lra]. apply Rmult_eq_reg_r in E2; [|lra].
  destruct p, q. cbn [fst snd] in *. subst. reflexivity.
Qed.
Lemma nodup_map_inj (f : pt -> pt) l : (forall p q, f p = f q -> p = q) -> NoDup l -> NoDup (map f l).
Proof.
  intros J N. induction N as [|x l H N IH]; cbn; constructor; [|exact IH].
  intros I. apply in_map_iff in I. destruct I as (y & E & I). apply J in E. subst. exact (H I).
Qed.
Lemma convex_scaled sl sw l : 0 < sl -> 0 < sw -> convex_contour l -> convex_contour (map (scaled sl sw) l).
Proof.
  intros Hl Hw ((p & q & E & L & NE) & N & C & (a & b & c & Ee & I & X)).
  assert (P : 0 < sl * sw) by (apply Rmult_lt_0_compat; assumption).
  split; [|split; [|split]].
  - exists (scaled sl sw p), (map (scaled sl sw) q). subst l. split; [reflexivity|]. split.
    + rewrite <- L at 2. clear -NE. revert p. induction q as [|x q IH]; intros p; [contradiction|].
      destruct q as [|y q]; [reflexivity|]. cbn [map last] in *. apply (IH ltac:(discriminate) p).
    + destruct q; [contradiction|discriminate].
  - replace (tl (map (scaled sl sw) l)) with (map (scaled sl sw) (tl l)) by (destruct l; reflexivity).
    apply nodup_map_inj; [|exact N]. intros u v. apply scaled_inj; assumption.
  - intros u v w Eu Iw. destruct (edge_map _ _ _ _ Eu) as (u' & v' & E' & -> & ->).
    apply in_map_iff in Iw. destruct Iw as (w' & <- & Iw). rewrite cross3_scaled. specialize (C _ _ _ E' Iw).
    assert (0 <= (- cross3 u' v' w') * (sl * sw)) by (apply Rmult_le_pos; lra). lra.
  - exists (scaled sl sw a), (scaled sl sw b), (scaled sl sw c).
    split; [apply map_edge, Ee|]. split; [apply in_map, I|]. rewrite cross3_scaled.
    assert (0 < (- cross3 a b c) * (sl * sw)) by (apply Rmult_lt_0_compat; lra). lra.
Qed.

Definition unit_limousine : list pt :=
  [((1), (0));
   ((9797/10000), (-5178/10000));
   ((8899/10000), (-9278/10000));
   ((7569/10000), (-1));
   ((3784/10000), (-1));
   ((0), (-1));
   ((-1330/10000), (-9268/10000));
   ((-2649/10000), (-6161/10000));
   ((-2906/10000), (0));
   ((-2649/10000), (6161/10000));
   ((-1330/10000), (9268/10000));
   ((0), (1));
   ((3784/10000), (1));
   ((7569/10000), (1));
   ((8899/10000), (9278/10000));
   ((9797/10000), (5178/10000));
   ((1), (0))].
Lemma limousine_scaled w r :
  generate_car_limousine_points w r = map (scaled ((w + 2 * r) / (12906/10000)) r) unit_limousine.
Proof. reflexivity. Qed.

Ltac nd := repeat (constructor;
  [let I := fresh in intros I; cbn [In] in I;
   repeat (destruct I as [I|I]; [injection I; clear I; intros; lra|]); exact I|]); try constructor.
Ltac cv := split; [eexists; eexists; split; [reflexivity|split; [reflexivity|discriminate]]|
  split; [cbn [tl]; nd|
  split; [apply all_right_edge; cbn [all_right right_of]; unfold cross3; cbn [fst snd]; repeat split; lra|]]].

Lemma unit_convex : convex_contour unit_limousine.
Proof.
  unfold unit_limousine. cv.
  exists (1, 0), (9797/10000, -5178/10000), (-2906/10000, 0).
  split; [exists []; eexists; reflexivity|]. split; [cbn [In]; do 8 right; left; reflexivity|].
  unfold cross3; cbn [fst snd]; lra.
Qed.

Ltac rect_cv := split; [eexists; eexists; split; [reflexivity|split; [reflexivity|discriminate]]|
  split; [cbn [tl]; nd|
  split; [apply all_right_edge; cbn [all_right right_of]; unfold cross3; cbn [fst snd]; repeat split; nra|]]].

Lemma obj_make c ps s : make_polygon c ps = Some s -> obj s = ps /\ center s = c.
Proof. unfold make_polygon, update_distances. cbn [obj center]. destruct (envelope ps) as [[mn mx]|]; [|discriminate]. intros E. injection E. intros <-. split; reflexivity. Qed.
Lemma make_some c p q : exists s, make_polygon c (p :: q) = Some s.
Proof. unfold make_polygon, update_distances. cbn [obj envelope]. eexists. reflexivity. Qed.

(** Every predefined contour is a closed, clockwise, convex polygon, for all positive dimensions. *)
Theorem C123_contours :
  (exists s, car_limousine = Some s /\ convex_contour (obj s)) /\
  (exists s, car_rectangle = Some s /\ convex_contour (obj s)) /\
  (forall w r, 0 < r -> 0 < w + 2 * r ->
     (exists s, generate_car_limousine w r = Some s /\ convex_contour (obj s)) /\
     (exists s, generate_car_rectangle w r = Some s /\ convex_contour (obj s))) /\
  (forall length width, 0 < length -> 0 < width ->
     exists s, generate_goal_rectangle length width = Some s /\ convex_contour (obj s)).
Proof.
  assert (X : forall c p q (P : shape -> Prop), (forall s, obj s = p :: q -> P s) -> exists s, make_polygon c (p :: q) = Some s /\ P s).
  { intros c p q P H. destruct (make_some c p q) as (s & E). exists s. split; [exact E|]. apply H, (obj_make _ _ _ E). }
  split; [|split; [|split]].
  - apply X. intros s ->. cv. exists (3850/1000, 0), (3772/1000, -495/1000), (-1119/1000, 0).
    split; [exists []; eexists; reflexivity|]. split; [cbn [In]; do 8 right; left; reflexivity|].
    unfold cross3; cbn [fst snd]; lra.
  - apply X. intros s ->. cv. exists (-1, -1), (-1, 1), (3, 1).
    split; [exists []; eexists; reflexivity|]. split; [cbn [In]; do 2 right; left; reflexivity|].
    unfold cross3; cbn [fst snd]; lra.
  - intros w r Hr Hw. split.
    + unfold generate_car_limousine. apply X. intros s E. rewrite E.
      change (convex_contour (generate_car_limousine_points w r)). rewrite limousine_scaled.
      apply convex_scaled; [|exact Hr|exact unit_convex]. unfold Rdiv. apply Rmult_lt_0_compat; lra.
    + apply X. intros s ->. rect_cv.
      exists (- r, - r), (- r, r), (w + r, r).
      split; [exists []; eexists; reflexivity|]. split; [cbn [In]; do 2 right; left; reflexivity|].
      unfold cross3; cbn [fst snd]; nra.
  - intros l w Hl Hw. apply X. intros s ->. rect_cv.
    exists (0, 0), (0, l), (w, l).
    split; [exists []; eexists; reflexivity|]. split; [cbn [In]; do 2 right; left; reflexivity|].
    unfold cross3; cbn [fst snd]; nra.
Qed.
Print Assumptions C123_contours.

(** Exact extents: a car of the given wheelbase and collision radius is wheelbase + 2 radius long and
    2 radius wide, mirror symmetric, and its distances from the pose are as listed. *)
Ltac rng := repeat (match goal with |- _ /\ _ => split end).
Lemma dist_of c ps s x0 x1 y0 y1 : make_polygon c ps = Some s ->
  range fst ps x0 x1 -> range snd ps y0 y1 ->
  rear_dist s = Rabs (x0 - px c) /\ front_dist s = Rabs (x1 - px c) /\
  left_dist s = Rabs (y0 - py c) /\ right_dist s = Rabs (y1 - py c).
Proof.
  intros H ((a & Ia & Ea) & (b & Ib & Eb) & L1) ((a' & Ia' & Ea') & (b' & Ib' & Eb') & L2).
  unfold make_polygon, update_distances in H. cbn [obj center] in H.
  destruct (envelope ps) as [[mn mx]|] eqn:E; [|discriminate]. injection H. intros <-. clear H.
  cbn [front_dist rear_dist left_dist right_dist].
  destruct (envelope_bounds _ _ _ E) as ((A1 & A2) & (B1 & B2) & (C1 & C2) & (D1 & D2)).
  destruct A1 as (p1 & J1 & F1), B1 as (p2 & J2 & F2), C1 as (p3 & J3 & F3), D1 as (p4 & J4 & F4).
  assert (fst mn = x0). { pose proof (A2 _ Ia). pose proof (L1 _ J1). cbn beta in *. lra. }
  assert (snd mn = y0). { pose proof (B2 _ Ia'). pose proof (L2 _ J2). cbn beta in *. lra. }
  assert (fst mx = x1). { pose proof (C2 _ Ib). pose proof (L1 _ J3). cbn beta in *. lra. }
  assert (snd mx = y1). { pose proof (D2 _ Ib'). pose proof (L2 _ J4). cbn beta in *. lra. }
  repeat split; congruence.
Qed.
Lemma range_scaled_x sl sw l lo hi : 0 < sl -> range fst l lo hi -> range fst (map (scaled sl sw) l) (lo * sl) (hi * sl).
Proof.
  intros H ((a & Ia & Ea) & (b & Ib & Eb) & L). split; [|split].
  - exists (scaled sl sw a). split; [apply in_map, Ia|]. cbn. rewrite Ea. reflexivity.
  - exists (scaled sl sw b). split; [apply in_map, Ib|]. cbn. rewrite Eb. reflexivity.
  - intros p I. apply in_map_iff in I. destruct I as (p' & <- & I). cbn [scaled fst]. specialize (L _ I). nra.
Qed.
Lemma range_scaled_y sl sw l lo hi : 0 < sw -> range snd l lo hi -> range snd (map (scaled sl sw) l) (lo * sw) (hi * sw).
Proof.
  intros H ((a & Ia & Ea) & (b & Ib & Eb) & L). split; [|split].
  - exists (scaled sl sw a). split; [apply in_map, Ia|]. cbn. rewrite Ea. reflexivity.
  - exists (scaled sl sw b). split; [apply in_map, Ib|]. cbn. rewrite Eb. reflexivity.
  - intros p I. apply in_map_iff in I. destruct I as (p' & <- & I). cbn [scaled snd]. specialize (L _ I). nra.
Qed.
Ltac allin := intros ? I; cbn [In] in I; repeat (destruct I as [<-|I]; [cbn [fst snd]; lra|]); contradiction.
Ltac pick_in := cbn [In]; first [left; reflexivity | right; pick_in].
Lemma unit_x : range fst unit_limousine (-2906/10000) 1.
Proof.
  unfold unit_limousine. split; [exists (-2906/10000, 0); split; [pick_in|reflexivity]|].
  split; [exists (1, 0); split; [pick_in|reflexivity]|]. allin.
Qed.
Lemma unit_y : range snd unit_limousine (-1) 1.
Proof.
  unfold unit_limousine. split; [exists (0, -1); split; [pick_in|reflexivity]|].
  split; [exists (0, 1); split; [pick_in|reflexivity]|]. allin.
Qed.

Theorem C123_limousine_extents : forall w r s, 0 < r -> 0 < w + 2 * r -> generate_car_limousine w r = Some s ->
  mirror_symmetric (obj s) /\
  range fst (obj s) (- rear_dist s) (front_dist s) /\ range snd (obj s) (- r) r /\
  front_dist s + rear_dist s = w + 2 * r /\ left_dist s = r /\ right_dist s = r /\
  front_dist s * (12906/10000) = w + 2 * r /\ rear_dist s = front_dist s * (2906/10000).
Proof.
  intros w r s Hr Hw E. destruct (obj_make _ _ _ E) as [O _]. rewrite O, limousine_scaled.
  set (sl := (w + 2 * r) / (12906/10000)) in *.
  assert (Hl : 0 < sl) by (unfold sl, Rdiv; apply Rmult_lt_0_compat; lra).
  assert (Es : sl * (12906/10000) = w + 2 * r) by (unfold sl; field).
  pose proof (range_scaled_x sl r _ _ _ Hl unit_x) as RX. pose proof (range_scaled_y sl r _ _ _ Hr unit_y) as RY.
  unfold generate_car_limousine in E. rewrite limousine_scaled in E. fold sl in E.
  destruct (dist_of _ _ _ _ _ _ _ E RX RY) as (D1 & D2 & D3 & D4).
  unfold px, py in *. cbn [fst snd] in *.
  assert (F1 : front_dist s = sl) by (rewrite D2; rewrite Rabs_pos_eq; lra).
  assert (F2 : rear_dist s = sl * (2906/10000)) by (rewrite D1; rewrite Rabs_left; lra).
  assert (F3 : left_dist s = r) by (rewrite D3; rewrite Rabs_left; lra).
  assert (F4 : right_dist s = r) by (rewrite D4; rewrite Rabs_pos_eq; lra).
  split.
  { intros p I. apply in_map_iff in I. destruct I as (q & <- & I).
    assert (M : mirror_symmetric unit_limousine).
    { clear. unfold unit_limousine. intros p I. cbn [In] in I.
      repeat (destruct I as [<-|I]; [cbn [fst snd];
        match goal with |- In ?x ?l => let y := eval cbn [fst snd] in x in
          (match y with (?a, ?b) =>
             first [ replace b with (5178/10000) by lra; pick_in | replace b with (-5178/10000) by lra; pick_in
                   | replace b with (9278/10000) by lra; pick_in | replace b with (-9278/10000) by lra; pick_in
                   | replace b with (9268/10000) by lra; pick_in | replace b with (-9268/10000) by lra; pick_in
                   | replace b with (6161/10000) by lra; pick_in | replace b with (-6161/10000) by lra; pick_in
                   | replace b with 1 by lra; pick_in | replace b with (-1) by lra; pick_in
                   | replace b with 0 by lra; pick_in ] end) end|]). contradiction. }
    specialize (M _ I). apply (in_map (scaled sl r)) in M. unfold scaled in M at 1. cbn [fst snd] in M.
    cbn [scaled fst snd]. replace (- (snd q * r)) with (- snd q * r) by ring. exact M. }
  split. { rewrite F1, F2. rewrite (Rmult_1_l sl) in RX. replace (- (sl * (2906/10000))) with (-2906/10000 * sl) by field. exact RX. }
  split. { rewrite (Rmult_1_l r) in RY. replace (- r) with (-1 * r) by ring. exact RY. }
  repeat split; [lra|exact F3|exact F4|lra|rewrite F1; exact F2].
Qed.
Print Assumptions C123_limousine_extents.

(** The two contours generated from the same wheelbase and radius are equally long and wide, but the
    limousine lies inside the rectangle only for one proportion; otherwise it sticks out at the rear
    (long cars) or at the front (short ones). *)
Theorem C123_limousine_in_rectangle : forall w r lim rect, 0 < r -> 0 < w + 2 * r ->
  generate_car_limousine w r = Some lim -> generate_car_rectangle w r = Some rect ->
  range fst (obj rect) (- r) (w + r) /\ range snd (obj rect) (- r) r /\
  ((forall p, In p (obj lim) -> - r <= fst p <= w + r /\ - r <= snd p <= r) <-> 2906 * w = 7094 * r) /\
  (2906 * w > 7094 * r -> exists p, In p (obj lim) /\ fst p < - r) /\
  (2906 * w < 7094 * r -> exists p, In p (obj lim) /\ fst p > w + r).
Proof.
  intros w r lim rect Hr Hw El Er.
  destruct (C123_limousine_extents w r lim Hr Hw El) as (_ & (I1 & I2 & RX) & (_ & _ & RY) & SUM & _ & _ & F & Rr).
  destruct (obj_make _ _ _ Er) as [O _]. rewrite O. clear O Er rect.
  split. { split; [exists (- r, - r); split; [pick_in|reflexivity]|]. split; [exists (w + r, r); split; [pick_in|reflexivity]|]. allin. }
  split. { split; [exists (- r, - r); split; [pick_in|reflexivity]|]. split; [exists (- r, r); split; [pick_in|reflexivity]|]. allin. }
  destruct I1 as (p1 & J1 & E1), I2 as (p2 & J2 & E2).
  split; [split|split].
  - intros H. pose proof (H _ J1) as [H1 _]. pose proof (H _ J2) as [H2 _]. lra.
  - intros E p I. specialize (RX _ I). specialize (RY _ I). lra.
  - intros H. exists p1. split; [exact J1|]. lra.
  - intros H. exists p2. split; [exact J2|]. lra.
Qed.
Print Assumptions C123_limousine_in_rectangle.

(** The stock limousine is the generated one for wheelbase 3.05681 and radius 0.956, up to half a millimetre. *)
Theorem C123_stock_limousine : forall s g, car_limousine = Some s ->
  generate_car_limousine (305681/100000) (956/1000) = Some g ->
  Forall2 (fun p q => Rabs (fst p - fst q) <= 5/10000 /\ Rabs (snd p - snd q) <= 5/10000) (obj s) (obj g) /\
  front_dist s = 385/100 /\ rear_dist s = 1119/1000 /\ left_dist s = 956/1000 /\ right_dist s = 956/1000 /\
  mirror_symmetric (obj s).
Proof.
  intros s g Es Eg. destruct (obj_make _ _ _ Es) as [O _]. destruct (obj_make _ _ _ Eg) as [O' _].
  rewrite O, O'. split.
  { assert (AB : forall x e, - e <= x <= e -> Rabs x <= e) by (intros; apply Rabs_le; assumption).
    unfold car_limousine_points, generate_car_limousine_points. cbv zeta.
    replace ((305681/100000 + 2 * (956/1000)) / (12906/10000)) with (385/100) by field.
    repeat (apply Forall2_cons; [split; cbn [fst snd]; apply AB; lra|]). apply Forall2_nil. }
  assert (RX : range fst car_limousine_points (-1119/1000) (3850/1000)).
  { split; [exists (-1119/1000, 0); split; [unfold car_limousine_points; pick_in|reflexivity]|].
    split; [exists (3850/1000, 0); split; [unfold car_limousine_points; pick_in|reflexivity]|]. unfold car_limousine_points. allin. }
  assert (RY : range snd car_limousine_points (-956/1000) (956/1000)).
  { split; [exists (0, -956/1000); split; [unfold car_limousine_points; pick_in|reflexivity]|].
    split; [exists (0, 956/1000); split; [unfold car_limousine_points; pick_in|reflexivity]|]. unfold car_limousine_points. allin. }
  destruct (dist_of _ _ _ _ _ _ _ Es RX RY) as (D1 & D2 & D3 & D4). unfold px, py in *. cbn [fst snd] in *.
  split; [rewrite D2; rewrite Rabs_pos_eq; lra|]. split; [rewrite D1; rewrite Rabs_left; lra|].
  split; [rewrite D3; rewrite Rabs_left; lra|]. split; [rewrite D4; rewrite Rabs_pos_eq; lra|].
  clear. unfold car_limousine_points. intros p I. cbn [In] in I.
  repeat (destruct I as [<-|I]; [cbn [fst snd];
    match goal with |- In ?x ?l => (match x with (?a, ?b) =>
             first [ replace b with (495/1000) by lra; pick_in | replace b with (-495/1000) by lra; pick_in
                   | replace b with (887/1000) by lra; pick_in | replace b with (-887/1000) by lra; pick_in
                   | replace b with (956/1000) by lra; pick_in | replace b with (-956/1000) by lra; pick_in
                   | replace b with (886/1000) by lra; pick_in | replace b with (-886/1000) by lra; pick_in
                   | replace b with (589/1000) by lra; pick_in | replace b with (-589/1000) by lra; pick_in
                   | replace b with 0 by lra; pick_in ] end) end|]). contradiction.
Qed.
Print Assumptions C123_stock_limousine.

(** The goal rectangle spans [0, width] x [0, length] (the length along y) and its pose is its centre. *)
Theorem C123_goal_rectangle : forall length width s, 0 <= length -> 0 <= width ->
  generate_goal_rectangle length width = Some s ->
  range fst (obj s) 0 width /\ range snd (obj s) 0 length /\
  center s = (width / 2, length / 2, 0) /\
  front_dist s = width / 2 /\ rear_dist s = width / 2 /\ left_dist s = length / 2 /\ right_dist s = length / 2.
Proof.
  intros l w s Hl Hw E. destruct (obj_make _ _ _ E) as [O C]. rewrite O, C.
  assert (RX : range fst [(0, 0); (0, l); (w, l); (w, 0); (0, 0)] 0 w).
  { split; [exists (0, 0); split; [pick_in|reflexivity]|]. split; [exists (w, l); split; [pick_in|reflexivity]|]. allin. }
  assert (RY : range snd [(0, 0); (0, l); (w, l); (w, 0); (0, 0)] 0 l).
  { split; [exists (0, 0); split; [pick_in|reflexivity]|]. split; [exists (w, l); split; [pick_in|reflexivity]|]. allin. }
  split; [exact RX|]. split; [exact RY|]. split; [reflexivity|].
  destruct (dist_of _ _ _ _ _ _ _ E RX RY) as (D1 & D2 & D3 & D4). unfold px, py in *. cbn [fst snd] in *.
  split; [rewrite D2; rewrite Rabs_pos_eq; lra|]. split; [rewrite D1; rewrite Rabs_left1; lra|].
  split; [rewrite D3; rewrite Rabs_left1; lra|rewrite D4; rewrite Rabs_pos_eq; lra].
Qed.
Print Assumptions C123_goal_rectangle.

(** The rectangular cars: the generated one reaches from a radius behind its pose to a radius ahead of
    the front axle; the stock one is 4 by 2 but its pose is not its centre. *)
Theorem C123_rectangle_extents :
  (forall w r s, 0 < r -> 0 < w + 2 * r -> generate_car_rectangle w r = Some s ->
     mirror_symmetric (obj s) /\ rear_dist s = r /\ front_dist s = Rabs (w + r) /\
     left_dist s = r /\ right_dist s = r) /\
  (forall s, car_rectangle = Some s ->
     range fst (obj s) (-1) 3 /\ range snd (obj s) (-1) 1 /\ center s = (5/4, 0, 0) /\
     front_dist s = 7/4 /\ rear_dist s = 9/4 /\ left_dist s = 1 /\ right_dist s = 1).
Proof.
  split.
  - intros w r s Hr Hw E. destruct (obj_make _ _ _ E) as [O C]. rewrite O.
    assert (RX : range fst [(- r, - r); (- r, r); (w + r, r); (w + r, - r); (- r, - r)] (- r) (w + r)).
    { split; [exists (- r, - r); split; [pick_in|reflexivity]|]. split; [exists (w + r, r); split; [pick_in|reflexivity]|]. allin. }
    assert (RY : range snd [(- r, - r); (- r, r); (w + r, r); (w + r, - r); (- r, - r)] (- r) r).
    { split; [exists (- r, - r); split; [pick_in|reflexivity]|]. split; [exists (w + r, r); split; [pick_in|reflexivity]|]. allin. }
    destruct (dist_of _ _ _ _ _ _ _ E RX RY) as (D1 & D2 & D3 & D4). unfold px, py in *. cbn [fst snd] in *.
    split.
    { intros p I. cbn [In] in I. repeat (destruct I as [<-|I]; [cbn [fst snd]; rewrite ?Ropp_involutive; pick_in|]). contradiction. }
    split; [rewrite D1; rewrite Rabs_left; lra|]. split; [rewrite D2; f_equal; ring|].
    split; [rewrite D3; rewrite Rabs_left; lra|rewrite D4; rewrite Rabs_pos_eq; lra].
  - intros s E. destruct (obj_make _ _ _ E) as [O C]. rewrite O, C.
    assert (RX : range fst [(-1, -1); (-1, 1); (3, 1); (3, -1); (-1, -1)] (-1) 3).
    { split; [exists (-1, -1); split; [pick_in|reflexivity]|]. split; [exists (3, 1); split; [pick_in|reflexivity]|]. allin. }
    assert (RY : range snd [(-1, -1); (-1, 1); (3, 1); (3, -1); (-1, -1)] (-1) 1).
    { split; [exists (-1, -1); split; [pick_in|reflexivity]|]. split; [exists (-1, 1); split; [pick_in|reflexivity]|]. allin. }
    destruct (dist_of _ _ _ _ _ _ _ E RX RY) as (D1 & D2 & D3 & D4). unfold px, py in *. cbn [fst snd] in *.
    split; [exact RX|]. split; [exact RY|]. split; [reflexivity|].
    split; [rewrite D2; rewrite Rabs_pos_eq; lra|]. split; [rewrite D1; rewrite Rabs_left; lra|].
    split; [rewrite D3; rewrite Rabs_left; lra|rewrite D4; rewrite Rabs_pos_eq; lra].
Qed.
Print Assumptions C123_rectangle_extents.

(** A 2.7 m wheelbase and 1 m radius: hypotheses met, the contour exists and sticks out of the rectangle at the rear or front. *)
Example C123_nonvacuous : exists lim rect, generate_car_limousine (27/10) 1 = Some lim /\
  generate_car_rectangle (27/10) 1 = Some rect /\ 0 < 27/10 + 2 * 1 /\ 2906 * (27/10) > 7094 * 1 /\
  exists p, In p (obj lim) /\ fst p < -1.
Proof.
  destruct (make_some (0, 0, 0) (1 * ((27/10 + 2 * 1) / (12906/10000)), 0 * 1) (tl (generate_car_limousine_points (27/10) 1))) as (lim & El).
  destruct (make_some (0, 0, 0) (- (1), - (1)) [(- (1), 1); (27/10 + 1, 1); (27/10 + 1, - (1)); (- (1), - (1))]) as (rect & Er).
  exists lim, rect. split; [exact El|]. split; [exact Er|]. split; [lra|]. split; [lra|].
  apply (C123_limousine_in_rectangle (27/10) 1 lim rect ltac:(lra) ltac:(lra) El Er). lra.
Qed.
