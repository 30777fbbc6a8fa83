(** C67: ComputeSafetyPolygon (safety_polygon.hpp). C68: the agents considered by the RSS check (rss_interface.cpp). *)
From Coq Require Import Reals List Bool Arith NArith Lra Lia.
From Verif Require Import Base_Real Base_Geom Model_Map Model_Angle Model_Frenet Proof_Frenet Model_RSS.
Import ListNotations.
Local Open Scope R_scope.

(** Coordinates of a point in the frame of a vehicle at [ego] heading [th]. *)
Definition ahead (ego : pt) (th : R) (p : pt) : R := (fst p - fst ego) * cos th + (snd p - snd ego) * sin th.
Definition leftward (ego : pt) (th : R) (p : pt) : R := - (fst p - fst ego) * sin th + (snd p - snd ego) * cos th.

Lemma polar_back (ego p : pt) : p <> ego -> exists r, 0 < r /\
  r * cos (atan2 (snd ego - snd p) (fst ego - fst p)) = fst ego - fst p /\
  r * sin (atan2 (snd ego - snd p) (fst ego - fst p)) = snd ego - snd p.
Proof.
  intros N. exists (sqrt ((fst ego - fst p) * (fst ego - fst p) + (snd ego - snd p) * (snd ego - snd p))).
  split; [|apply atan2_polar].
  apply sqrt_lt_R0. destruct ego as [a b], p as [c d]; cbn.
  assert (a <> c \/ b <> d) as [H|H] by (destruct (Req_dec a c), (Req_dec b d); subst; auto; exfalso; auto).
  - assert (0 < (a - c) * (a - c)) by (apply Rlt_0_sqr; intros E; apply H; lra).
    pose proof (Rle_0_sqr (b - d)) as Q. unfold Rsqr in Q. lra.
  - assert (0 < (b - d) * (b - d)) by (apply Rlt_0_sqr; intros E; apply H; lra).
    pose proof (Rle_0_sqr (a - c)) as Q. unfold Rsqr in Q. lra.
Qed.
Lemma sgn_lat_spec ego th p : p <> ego -> sgn_lat ego th p = if Rltb 0 (leftward ego th p) then 1 else -1.
Proof.
  intros N. destruct (polar_back ego p N) as (r & Hr & C & S).
  set (phi := atan2 _ _) in *. unfold sgn_lat. fold phi.
  destruct (sad_facts th phi) as (Rg & _ & Sn & _). destruct (sin_sign _ Rg) as [P _]. rewrite Sn in P.
  assert (E : r * sin (th - phi) = leftward ego th p) by (rewrite sin_minus; unfold leftward; nra).
  destruct (Rltb_spec 0 (sad th phi)) as [A|A], (Rltb_spec 0 (leftward ego th p)) as [B|B]; auto; exfalso.
  - apply P in A. nra.
  - assert (0 < sin (th - phi)) by nra. apply P in H. lra.
Qed.
Lemma sgn_lon_spec ego th p : p <> ego -> sgn_lon ego th p = if Rltb 0 (ahead ego th p) then 1 else -1.
Proof.
  intros N. destruct (polar_back ego p N) as (r & Hr & C & S).
  set (phi := atan2 _ _) in *. unfold sgn_lon. fold phi.
  destruct (sad_facts (th - PI / 2) phi) as (Rg & _ & Sn & _). destruct (sin_sign _ Rg) as [P _]. rewrite Sn in P.
  assert (E : r * sin (th - PI / 2 - phi) = ahead ego th p).
  { replace (th - PI / 2 - phi) with (- (PI / 2 - (th - phi))) by ring. rewrite sin_neg, sin_shift, cos_minus. unfold ahead. nra. }
  destruct (Rltb_spec 0 (sad (th - PI / 2) phi)) as [A|A], (Rltb_spec 0 (ahead ego th p)) as [B|B]; auto; exfalso.
  - apply P in A. nra.
  - assert (0 < sin (th - PI / 2 - phi)) by nra. apply P in H. lra.
Qed.
Lemma Forall2_length {A B} (P : A -> B -> Prop) l l' : Forall2 P l l' -> length l = length l'.
Proof. induction 1; cbn; congruence. Qed.
Lemma trig1 th : cos th * cos th + sin th * sin th = 1.
Proof. pose proof (sin2_cos2 th) as H. unfold Rsqr in H. lra. Qed.

(** Specification of the longitudinal direction in which a vertex is moved. *)
Definition wanted_lon (mode : lon_mode) (other_ahead vertex_ahead : bool) : R :=
  match mode, vertex_ahead with
  | FRONT, true => 1 | FRONT, false => 0
  | BEHIND, true => 0 | BEHIND, false => -1
  | FRONT_BEHIND, true => 1 | FRONT_BEHIND, false => -1
  | AUTO, true => if other_ahead then 1 else 0
  | AUTO, false => if other_ahead then 0 else -1
  end.

(** C67. Along the vehicle the polygon is extended as described: a vertex in front of (behind) the reference point is moved forward
    (back) by the longitudinal distance, in the directions of the chosen mode; in the automatic mode only towards the other agent. A
    distance above 10000 is ignored. *)
Theorem C67_longitudinal : forall sp mode other ego th p q, p <> ego -> (forall o, other = Some o -> o <> ego) ->
  safety_point sp mode other ego th p = Some q ->
  ahead ego th q = ahead ego th p +
    (if Rltb 10000 (sp_lon sp) then 0
     else wanted_lon mode (match other with Some o => Rltb 0 (ahead ego th o) | None => false end) (Rltb 0 (ahead ego th p)) * sp_lon sp).
Proof.
  intros sp mode other ego th p q Np No H. unfold safety_point in H.
  destruct (lon_sign mode other ego th p) as [s|] eqn:L; [|discriminate]. inversion H; subst q; clear H.
  assert (Es : s = wanted_lon mode (match other with Some o => Rltb 0 (ahead ego th o) | None => false end) (Rltb 0 (ahead ego th p))).
  { unfold lon_sign in L. rewrite (sgn_lon_spec ego th p Np) in L.
    destruct mode; cbn [wanted_lon].
    - destruct other as [o|]; [|discriminate]. rewrite (sgn_lon_spec ego th o (No o eq_refl)) in L.
      destruct (Rltb 0 (ahead ego th o)), (Rltb 0 (ahead ego th p));
        match type of L with Some (if Rltb ?x 0 then _ else _) = _ => destruct (Rltb_spec x 0) end; inversion L; lra.
    - destruct (Rltb 0 (ahead ego th p)); match type of L with Some (if Rltb ?x 0 then _ else _) = _ => destruct (Rltb_spec x 0) end; inversion L; lra.
    - destruct (Rltb 0 (ahead ego th p)); match type of L with Some (if Rltb 0 ?x then _ else _) = _ => destruct (Rltb_spec 0 x) end; inversion L; lra.
    - destruct (Rltb 0 (ahead ego th p)); inversion L; lra. }
  rewrite <- Es. clear Es L.
  assert (Lat : ahead ego th (lat_shift sp ego th p) = ahead ego th p).
  { unfold lat_shift. destruct (Rltb _ 10000); [|reflexivity]. unfold ahead. cbn [fst snd].
    destruct (Rltb 0 _).
    - replace (th - PI / 2) with (- (PI / 2 - th)) by ring. rewrite cos_neg, sin_neg, cos_shift, sin_shift. ring.
    - replace (th + PI / 2) with (PI / 2 - - th) by ring. rewrite cos_shift, sin_shift, sin_neg, cos_neg. ring. }
  rewrite <- Lat. unfold ahead. cbn [fst snd]. pose proof (trig1 th) as T.
  destruct (Rltb 10000 (sp_lon sp)); [ring|].
  replace ((fst (lat_shift sp ego th p) + s * sp_lon sp * cos th - fst ego) * cos th +
           (snd (lat_shift sp ego th p) + s * sp_lon sp * sin th - snd ego) * sin th)
    with ((fst (lat_shift sp ego th p) - fst ego) * cos th + (snd (lat_shift sp ego th p) - snd ego) * sin th +
          s * sp_lon sp * (cos th * cos th + sin th * sin th)) by ring.
  rewrite T. ring.
Qed.
Print Assumptions C67_longitudinal.

(** C67. Across the vehicle: a vertex on the LEFT is moved to the RIGHT by the right safety distance, every other vertex to the left
    by the left safety distance. Distances from 10000 on are ignored. *)
Theorem C67_lateral : forall sp mode other ego th p q, p <> ego -> safety_point sp mode other ego th p = Some q ->
  leftward ego th q = leftward ego th p +
    (if Rltb 0 (leftward ego th p) then (if Rltb (sp_right sp) 10000 then - sp_right sp else 0)
     else (if Rltb (sp_left sp) 10000 then sp_left sp else 0)).
Proof.
  intros sp mode other ego th p q Np H. unfold safety_point in H.
  destruct (lon_sign mode other ego th p) as [s0|]; [|discriminate]. inversion H; subst q; clear H.
  set (s := if Rltb 10000 (sp_lon sp) then 0 else s0). clearbody s.
  replace (leftward ego th _) with (leftward ego th (lat_shift sp ego th p)) by (unfold leftward; cbn [fst snd]; ring).
  unfold lat_shift. rewrite (sgn_lat_spec ego th p Np). pose proof (trig1 th) as T.
  destruct (Rltb_spec 0 (leftward ego th p)) as [L|L].
  - destruct (Rltb_spec 1 0); [lra|]. destruct (Rltb_spec 0 1); [|lra].
    destruct (Rltb (sp_right sp) 10000); [|ring]. unfold leftward. cbn [fst snd].
    replace (th - PI / 2) with (- (PI / 2 - th)) by ring. rewrite cos_neg, sin_neg, cos_shift, sin_shift.
    replace (- (fst p + sp_right sp * sin th - fst ego) * sin th + (snd p + sp_right sp * - cos th - snd ego) * cos th)
      with (- (fst p - fst ego) * sin th + (snd p - snd ego) * cos th - sp_right sp * (cos th * cos th + sin th * sin th)) by ring.
    rewrite T. ring.
  - destruct (Rltb_spec (-1) 0); [|lra]. destruct (Rltb_spec 0 (-1)); [lra|].
    destruct (Rltb (sp_left sp) 10000); [|ring]. unfold leftward. cbn [fst snd].
    replace (th + PI / 2) with (PI / 2 - - th) by ring. rewrite cos_shift, sin_shift, sin_neg, cos_neg.
    replace (- (fst p + sp_left sp * - sin th - fst ego) * sin th + (snd p + sp_left sp * cos th - snd ego) * cos th)
      with (- (fst p - fst ego) * sin th + (snd p - snd ego) * cos th + sp_left sp * (cos th * cos th + sin th * sin th)) by ring.
    rewrite T. ring.
Qed.
Print Assumptions C67_lateral.

(** C67. So the polygon does not surround the vehicle: whatever the safety distances between 0 and the width, every vertex ends up
    no further out than it was, and strictly inside when the distance is positive. *)
Theorem C67_surrounds_the_vehicle_refuted : forall sp mode other ego th p q w, p <> ego -> safety_point sp mode other ego th p = Some q ->
  0 < w -> Rabs (leftward ego th p) <= w -> 0 < sp_left sp < w -> 0 < sp_right sp < w -> w <= 10000 -> leftward ego th p <> 0 ->
  Rabs (leftward ego th q) < w.
Proof.
  intros sp mode other ego th p q w Np H Hw Hp Hl Hr Hb H0. rewrite (C67_lateral _ _ _ _ _ _ _ Np H).
  destruct (Rltb_spec 0 (leftward ego th p)) as [L|L].
  - destruct (Rltb_spec (sp_right sp) 10000); [|lra]. rewrite Rabs_pos_eq in Hp by lra. apply Rabs_def1; lra.
  - destruct (Rltb_spec (sp_left sp) 10000); [|lra]. rewrite Rabs_left1 in Hp by lra. apply Rabs_def1; lra.
Qed.
Print Assumptions C67_surrounds_the_vehicle_refuted.

(** C67. The call appends one point per vertex, in order, to what the polygon holds already; it returns false exactly when the ego, or
    in the automatic mode for a non-empty footprint the other agent, is missing, and then the polygon is unchanged. *)
Lemma add_points_spec sp mode other ego th ps acc :
  match add_points sp mode other ego th ps acc with
  | (l, true) => exists qs, l = acc ++ qs /\ Forall2 (fun p q => safety_point sp mode other ego th p = Some q) ps qs
  | (l, false) => mode = AUTO /\ other = None /\ ps <> [] /\ l = acc
  end.
Proof.
  revert acc; induction ps as [|p r IH]; intros acc; cbn [add_points].
  - exists []. split; [now rewrite app_nil_r|constructor].
  - destruct (safety_point sp mode other ego th p) as [q|] eqn:E.
    + specialize (IH (acc ++ [q])). destruct (add_points sp mode other ego th r (acc ++ [q])) as [l [|]].
      * destruct IH as (qs & -> & F). exists (q :: qs). split; [now rewrite <- app_assoc|now constructor].
      * destruct IH as (M & O & _ & _). exfalso. unfold safety_point, lon_sign in E. subst. discriminate.
    + unfold safety_point, lon_sign in E. destruct mode; try discriminate. destruct other; [discriminate|]. repeat split. discriminate.
Qed.
Theorem C67_polygon : forall sp mode other ego,
  let r := compute_safety_polygon sp mode other ego in
  sp_left (fst r) = sp_left sp /\ sp_right (fst r) = sp_right sp /\ sp_lon (fst r) = sp_lon sp /\ sp_agent (fst r) = sp_agent sp /\
  match ego with
  | None => snd r = false /\ sp_poly (fst r) = sp_poly sp
  | Some (pos, th, ps) =>
      (snd r = false <-> mode = AUTO /\ other = None /\ ps <> []) /\
      (snd r = false -> sp_poly (fst r) = sp_poly sp) /\
      (snd r = true -> exists qs, sp_poly (fst r) = sp_poly sp ++ qs /\ Forall2 (fun p q => safety_point sp mode other pos th p = Some q) ps qs)
  end.
Proof.
  intros sp mode other ego r. subst r. unfold compute_safety_polygon. destruct ego as [[[pos th] ps]|]; [|repeat split].
  pose proof (add_points_spec sp mode other pos th ps (sp_poly sp)) as H.
  destruct (add_points sp mode other pos th ps (sp_poly sp)) as [l [|]]; cbn.
  - do 4 (split; [reflexivity|]). split; [split; [discriminate|]|split; [discriminate|intros _; exact H]].
    intros (-> & -> & N). destruct ps as [|p r]; [now contradict N|]. destruct H as (qs & _ & F). inversion F; subst. discriminate.
  - destruct H as (-> & -> & N & ->). do 4 (split; [reflexivity|]). split; [split; auto|]. split; [reflexivity|discriminate].
Qed.
Print Assumptions C67_polygon.

(** C67. Computing the polygon of the same object twice doubles it. *)
Theorem C67_second_call_appends : forall sp mode other pos th ps sp1 sp2,
  compute_safety_polygon sp mode other (Some (pos, th, ps)) = (sp1, true) -> compute_safety_polygon sp1 mode other (Some (pos, th, ps)) = (sp2, true) ->
  length (sp_poly sp2) = (length (sp_poly sp) + 2 * length ps)%nat.
Proof.
  intros sp mode other pos th ps sp1 sp2 H1 H2.
  pose proof (C67_polygon sp mode other (Some (pos, th, ps))) as A. rewrite H1 in A. cbn [fst snd] in A.
  destruct A as (_ & _ & _ & _ & _ & _ & A). destruct (A eq_refl) as (q1 & E1 & F1).
  pose proof (C67_polygon sp1 mode other (Some (pos, th, ps))) as B. rewrite H2 in B. cbn [fst snd] in B.
  destruct B as (_ & _ & _ & _ & _ & _ & B). destruct (B eq_refl) as (q2 & E2 & F2).
  rewrite E2, E1, !app_length, <- (Forall2_length _ _ _ F1), <- (Forall2_length _ _ _ F2). lia.
Qed.
Print Assumptions C67_second_call_appends.

(** A car of 4 by 2 metres at the origin, safety distances of half a metre to the sides and ten to the front. *)
Definition car : list pt := [(-1, -1); (-1, 1); (3, 1); (3, -1)].
Definition sp_ex : safety_polygon := mkSP (/ 2) (/ 2) 10 [] 0 0.
Example C67_nonvacuous : exists qs, compute_safety_polygon sp_ex FRONT None (Some ((0, 0), 0, car)) = (mkSP (/2) (/2) 10 qs 0 0, true) /\
  length qs = 4%nat /\ Forall2 (fun p q => ahead (0, 0) 0 q = ahead (0, 0) 0 p + (if Rltb 0 (ahead (0, 0) 0 p) then 10 else 0)) car qs /\
  Forall (fun q => Rabs (leftward (0, 0) 0 q) < 1) qs.
Proof.
  pose proof (add_points_spec sp_ex FRONT None (0, 0) 0 car []) as H.
  unfold compute_safety_polygon. cbn [sp_poly sp_ex] in *. destruct (add_points sp_ex FRONT None (0, 0) 0 car []) as [l [|]] eqn:E.
  2: { destruct H as (K & _). discriminate. }
  destruct H as (qs & -> & F). exists qs. cbn in F |- *.
  split; [reflexivity|]. split; [now rewrite <- (Forall2_length _ _ _ F)|].
  assert (A : forall p q, In p car -> safety_point sp_ex FRONT None (0, 0) 0 p = Some q ->
            ahead (0, 0) 0 q = ahead (0, 0) 0 p + (if Rltb 0 (ahead (0, 0) 0 p) then 10 else 0) /\ Rabs (leftward (0, 0) 0 q) < 1).
  { intros p q I K.
    assert (Np : p <> (0, 0)) by (destruct I as [<-|[<-|[<-|[<-|[]]]]]; intros X; inversion X; lra).
    split.
    - rewrite (C67_longitudinal _ _ _ _ _ _ _ Np) with (2 := K) by discriminate. cbn [sp_lon sp_ex].
      destruct (Rltb_spec 10000 10); [lra|]. cbn [wanted_lon]. destruct (Rltb 0 (ahead (0, 0) 0 p)); ring.
    - apply (C67_surrounds_the_vehicle_refuted _ _ _ _ _ _ _ 1 Np K); try (cbn; lra).
      + unfold leftward. rewrite sin_0, cos_0. destruct I as [<-|[<-|[<-|[<-|[]]]]]; cbn; unfold Rabs; destruct (Rcase_abs _); lra.
      + unfold leftward. rewrite sin_0, cos_0. destruct I as [<-|[<-|[<-|[<-|[]]]]]; cbn; lra. }
  clear E. assert (S : forall p, In p car -> In p car) by auto. revert F S. generalize car at 1 2 4 as c.
  intros c F S. induction F as [|p q c' qs' Hpq F IH]; [split; constructor|].
  destruct (A p q (S p (or_introl eq_refl)) Hpq). destruct IH as [I1 I2]; [intros; apply S; now right|].
  split; constructor; auto.
Qed.

(* ------------------------------------------------------------------------- C68 *)
(** C68. The agents of the RSS check are exactly the other agents nearer than the scaled sum of the two stopping distances. *)
Theorem C68_relevant_agents : forall moved stopped agents center ego stop d scaling id,
  In id (relevant_agents moved stopped agents center ego stop d scaling) <->
  id <> ego /\ exists pos v, In (id, (pos, v)) agents /\ dist center pos < (stop + max_stopping moved stopped v d) * scaling.
Proof.
  intros. unfold relevant_agents. rewrite in_map_iff. split.
  - intros ([k [pos v]] & <- & I). apply filter_In in I as [I H]. cbn in *. apply andb_true_iff in H as [A B].
    apply negb_true_iff, N.eqb_neq in A. apply Rltb_iff in B. eauto.
  - intros (N & pos & v & I & H). exists (id, (pos, v)). split; [reflexivity|]. apply filter_In. split; [exact I|].
    cbn. apply andb_true_iff. split; [apply negb_true_iff, N.eqb_neq, N|apply Rltb_iff, H].
Qed.
Print Assumptions C68_relevant_agents.

(** Specification: the distance a vehicle needs to stop when it accelerates during the response time and then brakes with [b]. *)
Definition stopping_distance (v acc t b : R) : R := v * t + acc * t * t / 2 + (v + acc * t) * (v + acc * t) / (2 * - b).

(** C68. With the formulas of the library, and braking values below zero, the distance used is the stopping distance with the
    STRONGER of the two brakings, at the larger of the two accelerations. *)
Theorem C68_stopping_distance_used : forall v d, 0 <= d_response d -> 0 <= Rmax (d_acc_lon d) (d_acc_lat d) ->
  d_brake_min d < 0 -> d_brake_max d < 0 ->
  max_stopping kin_moved kin_stopped v d =
    stopping_distance (Rabs v) (Rmax (d_acc_lon d) (d_acc_lat d)) (d_response d) (Rmin (d_brake_min d) (d_brake_max d)).
Proof.
  intros v d Ht Ha H1 H2. unfold max_stopping, kin_moved, kin_stopped, stopping_distance.
  pose proof (Rabs_pos v). rewrite (Rabs_pos_eq (Rabs v + _)) by nra.
  destruct (Rltb_spec (Rmin (d_brake_min d) (d_brake_max d)) 0); [reflexivity|].
  unfold Rmin in *. destruct (Rle_dec (d_brake_min d) (d_brake_max d)); lra.
Qed.
Print Assumptions C68_stopping_distance_used.

(** C68. It is therefore no upper bound: with the documented order of the parameters (maximum braking stronger than minimum
    braking) it is strictly less than the distance the vehicle needs with the minimum braking, for every moving vehicle. *)
Theorem C68_upper_bound_refuted : forall v d, 0 <= d_response d -> 0 <= Rmax (d_acc_lon d) (d_acc_lat d) ->
  d_brake_max d < d_brake_min d < 0 -> v <> 0 ->
  max_stopping kin_moved kin_stopped v d < stopping_distance (Rabs v) (Rmax (d_acc_lon d) (d_acc_lat d)) (d_response d) (d_brake_min d).
Proof.
  intros v d Ht Ha [H1 H2] Hv. rewrite C68_stopping_distance_used by lra.
  rewrite Rmin_right by lra. unfold stopping_distance. pose proof (Rabs_pos_lt v Hv).
  set (u := Rabs v + Rmax (d_acc_lon d) (d_acc_lat d) * d_response d). assert (0 < u) by (unfold u; nra).
  apply Rplus_lt_compat_l. unfold Rdiv. apply Rmult_lt_compat_l; [nra|]. apply Rinv_lt_contravar; nra.
Qed.
Print Assumptions C68_upper_bound_refuted.

(** C68. A faster vehicle is considered from further away. *)
Theorem C68_monotone_in_speed : forall v v' d, 0 <= d_response d -> 0 <= Rmax (d_acc_lon d) (d_acc_lat d) ->
  d_brake_min d < 0 -> d_brake_max d < 0 -> Rabs v <= Rabs v' ->
  max_stopping kin_moved kin_stopped v d <= max_stopping kin_moved kin_stopped v' d.
Proof.
  intros v v' d Ht Ha H1 H2 H. rewrite !C68_stopping_distance_used by auto. unfold stopping_distance.
  set (a := Rmax _ _) in *. set (t := d_response d) in *. pose proof (Rabs_pos v).
  assert (B : 0 < / (2 * - Rmin (d_brake_min d) (d_brake_max d))).
  { apply Rinv_0_lt_compat. unfold Rmin. destruct (Rle_dec _ _); lra. }
  assert (Rabs v * t <= Rabs v' * t) by (apply Rmult_le_compat_r; auto).
  assert ((Rabs v + a * t) * (Rabs v + a * t) <= (Rabs v' + a * t) * (Rabs v' + a * t)).
  { assert (0 <= a * t) by (apply Rmult_le_pos; auto). nra. }
  unfold Rdiv at 2 4. nra.
Qed.
Print Assumptions C68_monotone_in_speed.

(** The default parameters meet the hypotheses; an agent inside the distance needed with minimum braking that is left out. *)
Definition default_dyn : rss_dyn := mkDyn (17 / 10) (2 / 10) (- (169 / 100)) (- (17 / 10)) (2 / 10).
Example C68_nonvacuous :
  0 <= d_response default_dyn /\ 0 <= Rmax (d_acc_lon default_dyn) (d_acc_lat default_dyn) /\ d_brake_max default_dyn < d_brake_min default_dyn < 0 /\
  let stop := stopping_distance 10 (17 / 10) (2 / 10) (- (169 / 100)) in
  let gap := 2 * stop - / 100 in
  relevant_agents kin_moved kin_stopped [(1%N, ((0, 0), 10)); (2%N, ((gap, 0), 10))] (0, 0) 1%N (max_stopping kin_moved kin_stopped 10 default_dyn) default_dyn 1 = [] /\
  gap < stop + stop.
Proof.
  assert (M : Rmax (17 / 10) (2 / 10) = 17 / 10) by (apply Rmax_left; lra).
  split; [cbn; lra|]. split; [cbn; rewrite M; lra|]. split; [cbn; lra|]. intros stop gap. split; [|unfold gap; lra].
  unfold relevant_agents. cbn [filter fst snd N.eqb Pos.eqb negb andb].
  assert (K : max_stopping kin_moved kin_stopped 10 default_dyn = stopping_distance 10 (17 / 10) (2 / 10) (- (17 / 10))).
  { rewrite C68_stopping_distance_used by (cbn; try rewrite M; lra). cbn [d_acc_lon d_acc_lat d_response d_brake_min d_brake_max default_dyn].
    rewrite M, Rmin_right by lra. now rewrite (Rabs_pos_eq 10) by lra. }
  rewrite K. destruct (Rltb_spec (dist (0, 0) (gap, 0)) ((stopping_distance 10 (17 / 10) (2 / 10) (- (17 / 10)) + stopping_distance 10 (17 / 10) (2 / 10) (- (17 / 10))) * 1)) as [L|L]; [|reflexivity].
  exfalso.
  assert (G : gap = 2 * (2 + 34 / 1000 + (1034 / 100) * (1034 / 100) * 100 / 338) - / 100) by (unfold gap, stop, stopping_distance; field).
  assert (S2 : stopping_distance 10 (17 / 10) (2 / 10) (- (17 / 10)) = 2 + 34 / 1000 + (1034 / 100) * (1034 / 100) * 10 / 34) by (unfold stopping_distance; field).
  assert (D : dist (0, 0) (gap, 0) = gap).
  { unfold dist. cbn [fst snd]. replace ((0 - gap) * (0 - gap) + (0 - 0) * (0 - 0)) with (gap * gap) by ring. apply sqrt_square.
    rewrite G. lra. }
  rewrite D, S2, G in L. lra.
Qed.
