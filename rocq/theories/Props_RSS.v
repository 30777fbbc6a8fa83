(** C65, C66: the RSS wrapper (rss_interface.cpp, evaluator_rss.hpp) and the acceleration limits of behavior_rss.cpp. *)
From Coq Require Import Reals List Bool Arith NArith Lra Lia.
From Verif Require Import Base_Real Base_Geom Model_Map Proof_Map Model_Angle Model_Line Model_Frenet Proof_Frenet Model_Dynamic Model_IDM Model_RSS Toy_Road.
Import ListNotations.
Local Open Scope R_scope.

(* ------------------------------------------------------------------------- C65 *)
(** Specification: the entries about one object, and the last of them. *)
Definition about (id : N) (s : snapshot) : snapshot := filter (fun st => N.eqb (rs_object st) id) s.
Definition last_about (id : N) (s : snapshot) : option rss_state := hd_error (rev (about id s)).

Lemma extract_safety_acc s a : fold_left (fun safe st => safe && negb (rs_dangerous st)) s a = true <->
  a = true /\ forall st, In st s -> rs_dangerous st = false.
Proof.
  revert a; induction s as [|x r IH]; intros a; cbn [fold_left].
  - split; [intros ->; split; [reflexivity|intros ? []]|now intros [-> _]].
  - rewrite IH, andb_true_iff, negb_true_iff. split.
    + intros [[-> D] H]. split; [reflexivity|]. intros st [<-|I]; auto.
    + intros [-> H]. split; [split; [reflexivity|]|]; intros; apply H; cbn; auto.
Qed.
Lemma extract_safety_iff s : extract_safety s = true <-> forall st, In st s -> rs_dangerous st = false.
Proof. unfold extract_safety. rewrite extract_safety_acc. tauto. Qed.

Lemma last_about_snoc id s x : last_about id (s ++ [x]) = if N.eqb (rs_object x) id then Some x else last_about id s.
Proof.
  unfold last_about, about. rewrite filter_app. cbn [filter]. destruct (N.eqb (rs_object x) id); [now rewrite rev_app_distr|now rewrite app_nil_r].
Qed.
Lemma extract_map {V} (f : rss_state -> V) s id :
  m_find id (fold_left (fun m st => m_insert (rs_object st) (f st) m) s []) = option_map f (last_about id s).
Proof.
  induction s as [|x r IH] using rev_ind; [reflexivity|].
  rewrite fold_left_app, last_about_snoc. cbn [fold_left].
  destruct (N.eqb_spec (rs_object x) id) as [<-|N].
  - now rewrite m_find_insert_same.
  - rewrite m_find_insert_other by congruence. exact IH.
Qed.
Lemma last_about_in id s st : last_about id s = Some st -> In st s /\ rs_object st = id.
Proof.
  unfold last_about. intros H. destruct (rev (about id s)) as [|y l] eqn:E; inversion H; subst.
  assert (I : In st (about id s)) by (rewrite in_rev, E; now left).
  apply filter_In in I as [I e]. now apply N.eqb_eq in e.
Qed.
Lemma last_about_some s st : In st s -> exists st', last_about (rs_object st) s = Some st'.
Proof.
  intros I. unfold last_about. destruct (rev (about (rs_object st) s)) as [|y l] eqn:E; [|now exists y].
  assert (J : In st (rev (about (rs_object st) s))) by (apply -> in_rev; apply filter_In; split; [exact I|apply N.eqb_refl]).
  rewrite E in J. destruct J.
Qed.

Section Wrapper.
  Variables World WM Resp : Type.
  Variable gen : World -> option WM.
  Variable calc : WM -> bool * snapshot * option Resp.
  Notation evaluate_observed := (evaluate_observed World WM Resp gen calc).
  Notation evaluate_world := (evaluate_world World WM Resp gen calc).
  Notation get_pairwise := (get_pairwise World WM Resp gen calc).
  Notation get_directional := (get_directional World WM Resp gen calc).

  (** C65. The verdict for an observed world: undefined exactly when no RSS world can be generated, otherwise true exactly when no
      entry the library returns is dangerous. It does not depend on the evaluator's history. *)
  Theorem C65_verdict : forall (e : evaluator Resp) w,
    match gen w with
    | None => snd (evaluate_observed e w) = None
    | Some wm => exists b, snd (evaluate_observed e w) = Some b /\
                 (b = true <-> forall st, In st (snd (fst (calc wm))) -> rs_dangerous st = false)
    end.
  Proof.
    intros e w. unfold Model_RSS.evaluate_observed, get_safety, rss_check. destruct (gen w) as [wm|]; [|reflexivity].
    destruct (calc wm) as [[ok s] r]. cbn. eexists; split; [reflexivity|]. apply extract_safety_iff.
  Qed.

  (** C65. Evaluating a world: false for an agent that is not there, else the verdict of the agent's observed world. *)
  Theorem C65_world_verdict : forall (e : evaluator Resp) ow,
    snd (evaluate_world e ow) = match ow with None => Some false | Some w => snd (evaluate_observed e w) end.
  Proof.
    intros e [w|]; [|reflexivity]. unfold Model_RSS.evaluate_world, Model_RSS.evaluate_observed.
    now destruct (get_safety World WM Resp gen calc (ev_if e) w).
  Qed.

  (** C65. The pairwise answers: an entry for exactly the objects the library mentions; it is the verdict of the LAST entry about
      that object. *)
  Theorem C65_pairwise : forall (i : iface Resp) w wm, gen w = Some wm ->
    forall id, m_find id (snd (get_pairwise i w)) = option_map (fun st => negb (rs_dangerous st)) (last_about id (snd (fst (calc wm)))) /\
               m_find id (snd (get_directional i w)) = option_map (fun st => (rs_lon_safe st, rs_lat_safe st)) (last_about id (snd (fst (calc wm)))).
  Proof.
    intros i w wm H id. unfold Model_RSS.get_pairwise, Model_RSS.get_directional, rss_check. rewrite H.
    destruct (calc wm) as [[ok s] r]. cbn. split; apply extract_map.
  Qed.

  (** C65. If the library reports every object at most once, the verdict is the conjunction of the pairwise answers. *)
  Theorem C65_verdict_is_all_pairwise : forall (e : evaluator Resp) w wm, gen w = Some wm ->
    NoDup (map rs_object (snd (fst (calc wm)))) ->
    (snd (evaluate_observed e w) = Some true <->
     forall id b, m_find id (snd (get_pairwise (ev_if e) w)) = Some b -> b = true).
  Proof.
    intros e w wm H ND. pose proof (C65_verdict e w) as V. rewrite H in V. destruct V as (b & -> & Hb).
    split.
    - intros E id b' F. inversion E; subst. destruct (C65_pairwise (ev_if e) w wm H id) as [P _]. rewrite P in F.
      destruct (last_about id _) as [st|] eqn:L; [|discriminate]. cbn in F. inversion F.
      apply last_about_in in L as [I _]. now rewrite (proj1 Hb eq_refl st I).
    - intros F. f_equal. apply Hb. intros st I.
      destruct (C65_pairwise (ev_if e) w wm H (rs_object st)) as [P _].
      destruct (last_about_some _ st I) as [st' L]. rewrite L in P. cbn in P. specialize (F _ _ P).
      apply last_about_in in L as [I' E'].
      assert (st' = st).
      { clear -ND I I' E'. induction (snd (fst (calc wm))) as [|x r IH]; [destruct I|].
        cbn in ND. inversion ND as [|? ? Nx Nr]; subst.
        destruct I as [<-|I], I' as [<-|I']; auto.
        - exfalso; apply Nx. rewrite <- E'. now apply in_map.
        - exfalso; apply Nx. rewrite E'. now apply in_map. }
      subst. now apply negb_true_iff in F.
  Qed.

  (** C65. With the library's definition of dangerous for structured scenes (unsafe in both directions) a pairwise answer is
      true exactly when one of the two directional answers is. *)
  Theorem C65_directional : forall (i : iface Resp) w wm, gen w = Some wm ->
    (forall st, In st (snd (fst (calc wm))) -> rs_dangerous st = negb (rs_lon_safe st) && negb (rs_lat_safe st)) ->
    forall id, m_find id (snd (get_pairwise i w)) = option_map (fun p => fst p || snd p) (m_find id (snd (get_directional i w))).
  Proof.
    intros i w wm H D id. destruct (C65_pairwise i w wm H id) as [-> ->].
    destruct (last_about id _) as [st|] eqn:L; [|reflexivity]. cbn. apply last_about_in in L as [I _].
    rewrite (D st I). now destruct (rs_lon_safe st), (rs_lat_safe st).
  Qed.

  (** C66. The response kept for the behaviour and for display after an evaluation is the one of the evaluation before: it is
      independent of the world just evaluated. *)
  Theorem C66_response_lags_one_evaluation : forall (e : evaluator Resp) w1 w2,
    let e1 := fst (evaluate_observed e w1) in
    let e2 := fst (evaluate_observed e1 w2) in
    ev_resp e2 = match gen w1 with
                 | Some wm => match snd (calc wm) with Some r => r | None => if_resp (ev_if e) end
                 | None => if_resp (ev_if e)
                 end /\
    map (fun p => (sp_agent p, (sp_left p, sp_right p), sp_lon p, sp_curr p, sp_poly p)) (ev_polys e2) =
      map (fun st => (rs_object st, (rs_left st, rs_right st), rs_lon st, rs_curr st, []))
          match gen w1 with Some wm => snd (fst (calc wm)) | None => if_snap (ev_if e) end.
  Proof.
    intros e w1 w2 e1 e2. subst e1 e2. unfold Model_RSS.evaluate_observed.
    destruct (get_safety World WM Resp gen calc (ev_if e) w1) as [i1 v1] eqn:E1. cbn [fst ev_if].
    destruct (get_safety World WM Resp gen calc i1 w2) as [i2 v2]. cbn [fst ev_resp ev_polys].
    unfold get_safety, rss_check in E1. destruct (gen w1) as [wm|].
    - destruct (calc wm) as [[ok s] r]. inversion E1; subst. cbn. split; [now destruct r|].
      rewrite map_map. reflexivity.
    - inversion E1; subst. split; [reflexivity|]. now rewrite map_map.
  Qed.

  (** C66. Over any sequence of evaluations in which the library always answers: the kept response after evaluation number k is the
      library's response for the world of evaluation k - 1. *)
  Theorem C66_response_history : forall (resp : World -> Resp) ws (e : evaluator Resp),
    (forall w, In w ws -> exists wm, gen w = Some wm /\ snd (calc wm) = Some (resp w)) ->
    map snd (evaluate_all World WM Resp gen calc e ws) =
      match ws with [] => [] | _ => if_resp (ev_if e) :: map resp (removelast ws) end.
  Proof.
    intros resp ws. induction ws as [|w r IH]; intros e H; [reflexivity|].
    destruct (H w (or_introl eq_refl)) as (wm & G & K).
    cbn [evaluate_all]. unfold Model_RSS.evaluate_observed at 1, get_safety, rss_check. rewrite G.
    destruct (calc wm) as [[ok s] q]. cbn in K. subst q. cbn [map snd ev_resp fst].
    f_equal. rewrite IH by (intros; apply H; now right). cbn [ev_if if_resp].
    destruct r as [|w2 r2]; [reflexivity|]. reflexivity.
  Qed.
End Wrapper.
Print Assumptions C65_verdict.
Print Assumptions C65_verdict_is_all_pairwise.
Print Assumptions C65_directional.
Print Assumptions C66_response_history.

(** An RSS library answering from a list; world models are lists of entries. *)
Definition mk_state (id : N) (danger : bool) : rss_state := mkRss id danger (negb danger) false 0 0 0 0.
Definition list_calc (s : snapshot) : bool * snapshot * option nat := (true, s, Some (length s)).
Definition ev0 : evaluator nat := mkEv (mkIf 7%nat []) 0%nat [] [].

(** C65. Not every verdict agrees with the pairwise answers: with two situations about one object the pairwise evaluation only shows
      the last one, so all pairwise answers can be true while the verdict is false. *)
Theorem C65_pairwise_hides_a_violation_refuted :
  exists (gen : snapshot -> option snapshot) (w : snapshot),
    snd (evaluate_observed _ _ _ gen list_calc ev0 w) = Some false /\
    (forall id b, m_find id (snd (get_pairwise _ _ _ gen list_calc (ev_if ev0) w)) = Some b -> b = true).
Proof.
  exists Some, [mk_state 3 true; mk_state 3 false]. split; [reflexivity|].
  intros id b H. apply m_find_In in H. vm_compute in H. destruct H as [H|[]]. congruence.
Qed.
Print Assumptions C65_pairwise_hides_a_violation_refuted.

(** C65. A failed RSS check is not reported: when the library returns false and leaves the snapshot empty, the verdict is "safe",
      although the interface promises no answer when the check cannot be performed. *)
Theorem C65_failed_check_is_reported_safe_refuted :
  exists (gen : unit -> option unit) (calc : unit -> bool * snapshot * option nat),
    fst (fst (calc tt)) = false /\ snd (evaluate_observed _ _ _ gen calc ev0 tt) = Some true.
Proof. exists Some, (fun _ => (false, [], None)). split; reflexivity. Qed.
Print Assumptions C65_failed_check_is_reported_safe_refuted.

(** The hypotheses of C65 and C66 are met. *)
Example C65_nonvacuous :
  let w := [mk_state 3 false; mk_state 5 true] in
  NoDup (map rs_object w) /\
  (forall st, In st w -> rs_dangerous st = negb (rs_lon_safe st) && negb (rs_lat_safe st)) /\
  snd (evaluate_observed _ _ _ Some list_calc ev0 w) = Some false /\
  snd (get_pairwise _ _ _ Some list_calc (ev_if ev0) w) = [(3%N, true); (5%N, false)] /\
  map snd (evaluate_all _ _ _ Some list_calc ev0 [w; []; [mk_state 1 false]]) = [7; 2; 0]%nat.
Proof.
  cbn. split; [repeat constructor; cbn; intuition discriminate|]. split; [|repeat split].
  intros st [<-|[<-|[]]]; reflexivity.
Qed.

(* ------------------------------------------------------------------------- C66, limits *)
(** Specification: the street-side lateral range in force: of the side the vehicle moves to when it does so faster than the
    threshold, else the intersection of both. *)
Definition lateral_range (thr v : R) (rest : restriction) : R * R :=
  if Rltb thr v then r_left rest
  else if Rltb v (- thr) then r_right rest
  else (Rmax (fst (r_left rest)) (fst (r_right rest)), Rmin (snd (r_left rest)) (snd (r_right rest))).

Lemma sad_same a : sad a a = 0.
Proof.
  destruct (sad_facts a a) as (R & _ & S & D).
  replace (a - a) with 0 in S by ring. rewrite sin_0 in S. pose proof PI_RGT_0 as P.
  destruct D as [k D]. assert (K : sad a a = IZR k * (2 * PI)) by lra.
  assert (k = 0%Z).
  { assert (-1 < IZR k < 1) by nra. assert (- 1 < k < 1)%Z by (split; apply lt_IZR; lra). lia. }
  subst k. rewrite K. ring.
Qed.

(** C66. The street limits are the longitudinal range of the RSS response and the lateral range of the side in which the
    vehicle moves; the vehicle limits have the same longitudinal range. *)
Theorem C66_street_limits : forall thr dt rest hist center act roadx veh street,
  convert_restrictions thr dt rest hist center act roadx = Some (veh, street) -> 0 <= thr ->
  exists cur f, hd_error (rev hist) = Some cur /\ frenet_state cur center = Some f /\
    (al_lon_min street, al_lon_max street) = r_lon rest /\ (al_lon_min veh, al_lon_max veh) = r_lon rest /\
    (al_lat_min street, al_lat_max street) = lateral_range thr (vlat f) rest.
Proof.
  intros thr dt rest hist center act roadx veh street H Ht. unfold convert_restrictions in H.
  destruct (rev hist) as [|cur l]; [discriminate|]. exists cur.
  destruct (frenet_state cur center) as [f|] eqn:F; [|discriminate]. exists f.
  destruct (lon_acc_of act) as [al|]; [|discriminate].
  match type of H with match ?X with _ => _ end = _ => destruct X as [[[[a b] c] d]|]; [|discriminate] end.
  split; [reflexivity|]. split; [reflexivity|]. unfold lateral_range.
  destruct (Rltb thr (vlat f)); [|destruct (Rltb (vlat f) (- thr))]; inversion H; subst; cbn;
    destruct rest as [[? ?] [? ?] [? ?]]; repeat split; reflexivity.
Qed.
Print Assumptions C66_street_limits.

(** C66. Without the road-x exception the lateral vehicle limits are the conversions of the street limits for the current heading, the
    current speed being irrelevant: the road is always taken to be straight, because the "last" state used is the current one. When
    both sides are in force this holds if the vehicle points along the road (cosine of the heading error positive). *)
Theorem C66_vehicle_limits : forall thr dt rest hist center act veh street,
  convert_restrictions thr dt rest hist center act false = Some (veh, street) ->
  exists cur f a, hd_error (rev hist) = Some cur /\ frenet_state cur center = Some f /\ lon_acc_of act = Some a /\
    let d := sad (sth cur) (angle_road f) in
    cos d <> 0 /\
    (thr < Rabs (vlat f) \/ 0 < cos d ->  0 <= thr ->
     al_lat_max veh * cos d + a * sin d = al_lat_max street /\ al_lat_min veh * cos d + a * sin d = al_lat_min street).
Proof.
  intros thr dt rest hist center act veh street H. unfold convert_restrictions in H.
  destruct (rev hist) as [|cur l]; [discriminate|]. exists cur.
  destruct (frenet_state cur center) as [f|] eqn:F; [|discriminate]. exists f.
  destruct (lon_acc_of act) as [al|]; [|discriminate]. exists al.
  unfold to_vehicle, lat_acc_street_to_vehicle in H. rewrite sad_same in H.
  set (d := sad (sth cur) (angle_road f)) in *.
  destruct (Reqb_spec dt 0) as [?|Hdt]; [discriminate|].
  destruct (Reqb_spec (cos d) 0) as [?|Hc]; [discriminate|].
  split; [reflexivity|]. split; [reflexivity|]. split; [reflexivity|]. cbv zeta. split; [exact Hc|]. intros Hv Ht.
  replace (0 / dt) with 0 in H by (field; exact Hdt). rewrite !Rmult_0_r in H.
  assert (Q : forall x, ((x - al * sin d) / cos d + 0) * cos d + al * sin d = x) by (intros; field; exact Hc).
  destruct (Rltb_spec thr (vlat f)) as [L|L]; [inversion H; subst; cbn; split; apply Q|].
  destruct (Rltb_spec (vlat f) (- thr)) as [L2|L2]; [inversion H; subst; cbn; split; apply Q|].
  destruct Hv as [Hv|Hv]; [exfalso; unfold Rabs in Hv; destruct (Rcase_abs (vlat f)); lra|].
  assert (Mono : forall x y, (x - al * sin d) / cos d + 0 <= (y - al * sin d) / cos d + 0 <-> x <= y).
  { intros x y. pose proof (Q x) as Qx. pose proof (Q y) as Qy. split; intros; nra. }
  inversion H; subst; cbn. split.
  - unfold Rmin. destruct (Rle_dec _ _) as [A|A]; destruct (Rle_dec _ _) as [B|B]; try apply Q.
    + apply (proj1 (Mono _ _)) in A. contradiction.
    + exfalso; apply A. apply Mono, B.
  - unfold Rmax. destruct (Rle_dec _ _) as [A|A]; destruct (Rle_dec _ _) as [B|B]; try apply Q.
    + apply (proj1 (Mono _ _)) in A. contradiction.
    + exfalso; apply A. apply Mono, B.
Qed.
Print Assumptions C66_vehicle_limits.

(** C66. The conversion depends on the current state only, however the road turned since the state before. *)
Theorem C66_conversion_ignores_history : forall thr dt rest hist hist' cur center act roadx,
  convert_restrictions thr dt rest (hist ++ [cur]) center act roadx = convert_restrictions thr dt rest (hist' ++ [cur]) center act roadx.
Proof. intros. unfold convert_restrictions. now rewrite !rev_app_distr. Qed.
Print Assumptions C66_conversion_ignores_history.

(** C66. Driving against the road the converted interval is turned around: a non-empty street range becomes an empty one. *)
Theorem C66_reversed_when_driving_against_the_road : forall thr dt rest hist center act veh street cur f,
  convert_restrictions thr dt rest hist center act false = Some (veh, street) ->
  hd_error (rev hist) = Some cur -> frenet_state cur center = Some f -> 0 <= thr -> thr < Rabs (vlat f) ->
  cos (sad (sth cur) (angle_road f)) < 0 -> al_lat_min street < al_lat_max street -> al_lat_max veh < al_lat_min veh.
Proof.
  intros thr dt rest hist center act veh street cur f H Hc Hf Ht Hv Hcos Hr.
  destruct (C66_vehicle_limits _ _ _ _ _ _ _ _ H) as (cur' & f' & a & E1 & E2 & _ & _ & K).
  rewrite Hc in E1. inversion E1; subst cur'. rewrite Hf in E2. inversion E2; subst f'.
  destruct (K (or_introl Hv) Ht) as [A B]. nra.
Qed.
Print Assumptions C66_reversed_when_driving_against_the_road.

(** The hypotheses of the C66 theorems are met: a vehicle on a straight road, turned by [th]. *)
Lemma sad_small_angle a : - PI <= a < PI -> sad a 0 = a.
Proof.
  intros H. destruct (sad_facts a 0) as (A & _ & _ & [k D]). pose proof PI_RGT_0.
  assert (K : sad a 0 - a = IZR k * (2 * PI)) by lra.
  assert (-1 < IZR k < 1) by nra. assert (- 1 < k < 1)%Z by (split; apply lt_IZR; lra).
  assert (k = 0%Z) by lia. subst k. lra.
Qed.
Lemma road_frenet th v : - PI <= th < PI ->
  exists f, frenet_state (mkDS 50 0 th v) road = Some f /\ vlat f = sin th * v /\ angle_road f = 0.
Proof.
  intros H. unfold frenet_state. cbn [sx sy sth sv].
  pose proof (road_nearest 50 0 ltac:(lra)) as N. unfold get_nearest_s in N.
  destruct (get_nearest_point_and_s road (50, 0)) as [[[near s] i]|]; [|discriminate]. inversion N; subst.
  rewrite road_tangent by lra. eexists; split; [reflexivity|]. cbn. now rewrite sad_small_angle.
Qed.
Example C66_limits_nonvacuous :
  let rest := mkRest (-3, 2) (-1, 1) (-2, /2) in
  (exists veh street f, convert_restrictions (/10) (/5) rest [mkDS 49 0 0 10; mkDS 50 0 (PI / 6) 10] road (Continuous1D 1) false = Some (veh, street) /\
     frenet_state (mkDS 50 0 (PI / 6) 10) road = Some f /\ / 10 < vlat f /\ 0 < cos (sad (PI / 6) (angle_road f)) /\ street = mkAL 1 (-1) 2 (-3)) /\
  (exists veh street f, convert_restrictions (/10) (/5) rest [mkDS 50 0 (5 * (PI / 6)) 10] road (Continuous1D 1) false = Some (veh, street) /\
     frenet_state (mkDS 50 0 (5 * (PI / 6)) 10) road = Some f /\ / 10 < vlat f /\
     cos (sad (5 * (PI / 6)) (angle_road f)) < 0 /\ al_lat_min street < al_lat_max street /\ al_lat_max veh < al_lat_min veh).
Proof.
  intros rest. pose proof PI_RGT_0 as P. pose proof sin_PI6 as S6. pose proof cos_PI6 as C6.
  assert (S3 : 0 < sqrt 3) by (apply sqrt_lt_R0; lra).
  assert (S5 : sin (5 * (PI / 6)) = 1 / 2) by (replace (5 * (PI / 6)) with (PI - PI / 6) by field; rewrite sin_PI_x; exact S6).
  assert (C5 : cos (5 * (PI / 6)) = - (sqrt 3 / 2)).
  { replace (5 * (PI / 6)) with (- (PI / 6) + PI) by field. rewrite neg_cos, cos_neg, C6. lra. }
  split.
  - destruct (road_frenet (PI / 6) 10 ltac:(lra)) as (f & F & V & A).
    assert (V' : / 10 < vlat f) by (rewrite V, S6; lra).
    assert (CA : 0 < cos (sad (PI / 6) (angle_road f))) by (rewrite A, sad_small_angle by lra; rewrite C6; lra).
    unfold convert_restrictions. cbn [rev app]. rewrite F. cbn [lon_acc_of].
    unfold to_vehicle, lat_acc_street_to_vehicle. cbn [sth sv].
    destruct (Reqb_spec (/ 5) 0); [lra|]. destruct (Reqb_spec (cos (sad (PI / 6) (angle_road f))) 0); [lra|].
    destruct (Rltb_spec (/ 10) (vlat f)); [|lra].
    do 3 eexists. split; [reflexivity|]. split; [reflexivity|]. split; [exact V'|]. split; [exact CA|reflexivity].
  - destruct (road_frenet (5 * (PI / 6)) 10 ltac:(lra)) as (f & F & V & A).
    assert (V' : / 10 < vlat f) by (rewrite V, S5; lra).
    assert (CA : cos (sad (5 * (PI / 6)) (angle_road f)) < 0) by (rewrite A, sad_small_angle by lra; rewrite C5; lra).
    assert (D : exists veh street, convert_restrictions (/10) (/5) rest [mkDS 50 0 (5 * (PI / 6)) 10] road (Continuous1D 1) false = Some (veh, street)
                /\ street = mkAL 1 (-1) 2 (-3)).
    { unfold convert_restrictions. cbn [rev app]. rewrite F. cbn [lon_acc_of].
      unfold to_vehicle, lat_acc_street_to_vehicle. cbn [sth sv].
      destruct (Reqb_spec (/ 5) 0); [lra|]. destruct (Reqb_spec (cos (sad (5 * (PI / 6)) (angle_road f))) 0); [lra|].
      destruct (Rltb_spec (/ 10) (vlat f)); [|lra]. do 2 eexists. split; reflexivity. }
    destruct D as (veh & street & D & E). exists veh, street, f. subst street.
    split; [exact D|]. split; [exact F|]. split; [exact V'|]. split; [exact CA|]. split; [cbn; lra|].
    refine (C66_reversed_when_driving_against_the_road _ _ _ _ _ _ _ _ _ _ D eq_refl F _ _ CA _); [lra| |cbn; lra].
    rewrite Rabs_pos_eq; lra.
Qed.
