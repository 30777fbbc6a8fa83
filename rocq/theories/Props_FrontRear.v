(* C09, C10: World::GetAgentFrontRearForId. *)
From Coq Require Import List NArith ZArith QArith Qabs Bool Lia.
From Verif Require Import Model_Map Proof_Map Model_World Spec_World Proof_World Proof_World2 Toy_World
  Model_FrontRear Spec_FrontRear Proof_FrontRear.
Import ListNotations.

Section Combine.
  Context {T : Types} (O : Ops T) (Corridor : Type).
  Variable cor_poly : Corridor -> tPoly T.
  Variable position : tState T -> tPoint T.
  Variable rel : Corridor -> tState T -> tShape T -> tState T -> tShape T -> frel.

  Lemma inv_least w ego s sh c latthr angthr lonthr l f r (P : agent T -> Prop) :
    fr_inv O Corridor rel w ego s sh c latthr angthr lonthr l (f, r) ->
    (forall a, live_at O w a -> (In a l <-> P a)) ->
    least_lon (fun a d => P a /\ candidate O Corridor rel w ego s sh c latthr angthr a d /\ lonthr <= r_lon d) f /\
    least_lon (fun a d => P a /\ candidate O Corridor rel w ego s sh c latthr angthr a d /\ r_lon d < lonthr) r.
  Proof.
    intros (I1 & I2 & I3 & I4) HP. cbn [fst snd] in *.
    assert (HP' : forall a d, candidate O Corridor rel w ego s sh c latthr angthr a d -> (In a l <-> P a)).
    { intros a d (_ & Hl & _). exact (HP a Hl). }
    split.
    - destruct f as [[a d]|]; cbn [least_lon].
      + destruct I1 as (X1 & X2 & X3 & X4). split; [split; [apply (HP' a d X2), X1|auto]|].
        split; [exact X4|]. intros a' d' (Y1 & Y2 & Y3). apply (I3 a' d'); auto. apply (HP' a' d' Y2), Y1.
      + intros a' d' (Y1 & Y2 & Y3). apply (I3 a' d'); auto. apply (HP' a' d' Y2), Y1.
    - destruct r as [[a d]|]; cbn [least_lon].
      + destruct I2 as (X1 & X2 & X3 & X4). split; [split; [apply (HP' a d X2), X1|auto]|].
        split; [exact X4|]. intros a' d' (Y1 & Y2 & Y3). apply (I4 a' d'); auto. apply (HP' a' d' Y2), Y1.
      + intros a' d' (Y1 & Y2 & Y3). apply (I4 a' d'); auto. apply (HP' a' d' Y2), Y1.
  Qed.

  Lemma in_corridor_spec w ego e s c latthr angthr lonthr :
    world_ok w -> index_fresh O w -> box_contract O ->
    get_agent w ego = Some e -> current_state e = Some s ->
    exists f r, get_front_rear O Corridor cor_poly position rel w ego c latthr angthr true lonthr = Some (f, r) /\
      let P a := get_agent w (ag_id a) = Some a /\
                 exists s', current_state a = Some s' /\ collide O (ag_shape a) s' (cor_poly c) = true in
      least_lon (fun a d => P a /\ candidate O Corridor rel w ego s (ag_shape e) c latthr angthr a d /\ lonthr <= r_lon d) f /\
      least_lon (fun a d => P a /\ candidate O Corridor rel w ego s (ag_shape e) c latthr angthr a d /\ r_lon d < lonthr) r.
  Proof.
    intros Hok Hf Hb He Hs. destruct (intersect_spec O w (cor_poly c) (proj1 Hok) Hf Hb) as (m & Hm & Hms & Hin).
    assert (Hcons : considered O Corridor cor_poly position w ego c true = Some m) by exact Hm.
    destruct Hok as (Hsw & Hag & _).
    destruct (front_rear_total O Corridor cor_poly position rel w ego e c latthr angthr true lonthr m He
                (proj2 (Hag _ _ He)) Hcons) as [[f r] Hr].
    { intros i a H. apply m_find_iff in H; [|exact Hms]. apply Hin in H as (H & _). exact (proj2 (Hag _ _ H)). }
    exists f, r. split; [exact Hr|]. cbv zeta.
    eapply (inv_least w ego s (ag_shape e) c latthr angthr lonthr (map snd m) f r); [exact (front_rear_spec _ _ _ _ _ _ _ _ _ _ _ _ _ _ _ _ He Hs Hcons Hr)|].
    intros a Hl. split.
    - intros H. apply in_map_iff in H as ([i a'] & Heq & H). cbn in Heq; subst a'.
      apply m_find_iff in H; [|exact Hms]. apply Hin in H as (H & _ & Hc).
      split; [rewrite (proj1 (Hag _ _ H)); exact H|exact Hc].
    - intros (H & Hc). apply in_map_iff. exists (ag_id a, a). split; [reflexivity|].
      apply m_find_iff; [exact Hms|]. apply Hin. auto.
  Qed.

  Lemma nearest_mode_spec w ego e s c latthr angthr lonthr dist :
    world_ok w -> index_fresh O w -> knn_contract O dist ->
    get_agent w ego = Some e -> current_state e = Some s ->
    exists ids f r,
      get_front_rear O Corridor cor_poly position rel w ego c latthr angthr false lonthr = Some (f, r) /\
      length ids = Nat.min (N.to_nat (w_maxfr w + 1)) (length (w_agents w)) /\ NoDup ids /\
      (forall i j a b ba bb, In i ids -> ~ In j ids -> get_agent w i = Some a -> get_agent w j = Some b ->
         agent_box O a ba -> agent_box O b bb -> dist ba (position s) <= dist bb (position s)) /\
      let P a := get_agent w (ag_id a) = Some a /\ In (ag_id a) ids in
      least_lon (fun a d => P a /\ candidate O Corridor rel w ego s (ag_shape e) c latthr angthr a d /\ lonthr <= r_lon d) f /\
      least_lon (fun a d => P a /\ candidate O Corridor rel w ego s (ag_shape e) c latthr angthr a d /\ r_lon d < lonthr) r.
  Proof.
    intros Hok Hf Hk He Hs.
    destruct (nearest_spec O w dist (position s) (N.to_nat (w_maxfr w + 1)) (proj1 Hok) Hf Hk)
      as (m & ids & Hm & Hms & Hnd & Hlen & _ & Hnear & Hin).
    assert (Hcons : considered O Corridor cor_poly position w ego c false = Some m)
      by (unfold considered; rewrite He, Hs; exact Hm).
    destruct Hok as (Hsw & Hag & _).
    destruct (front_rear_total O Corridor cor_poly position rel w ego e c latthr angthr false lonthr m He
                (proj2 (Hag _ _ He)) Hcons) as [[f r] Hr].
    { intros i a H. apply m_find_iff in H; [|exact Hms]. apply Hin in H as (_ & H & _). exact (proj2 (Hag _ _ H)). }
    exists ids, f, r. split; [exact Hr|]. split; [exact Hlen|]. split; [exact Hnd|]. split; [exact Hnear|]. cbv zeta.
    eapply (inv_least w ego s (ag_shape e) c latthr angthr lonthr (map snd m) f r); [exact (front_rear_spec _ _ _ _ _ _ _ _ _ _ _ _ _ _ _ _ He Hs Hcons Hr)|].
    intros a Hl. split.
    - intros H. apply in_map_iff in H as ([i a'] & Heq & H). cbn in Heq; subst a'.
      apply m_find_iff in H; [|exact Hms]. apply Hin in H as (Hi & H & _).
      rewrite (proj1 (Hag _ _ H)). split; assumption.
    - intros (H & Hc). apply in_map_iff. exists (ag_id a, a). split; [reflexivity|].
      apply m_find_iff; [exact Hms|]. apply Hin. auto.
  Qed.
End Combine.

(* C09 (default mode: agents must touch the corridor polygon): on a fresh index the query always
   answers; the front agent is the one with the least longitudinal difference among ALL other live
   agents of the world that touch the corridor, are inside the lateral and angular thresholds and at
   least the threshold ahead; none is reported iff there is none (below DBL_MAX). *)
Theorem C09_front_is_nearest_ahead :
  forall (T : Types) (O : Ops T) (Corridor : Type) cor_poly position rel (w : world T) ego e s (c : Corridor) latthr angthr lonthr,
  world_ok w -> index_fresh O w -> box_contract O ->
  get_agent w ego = Some e -> current_state e = Some s ->
  exists front rear,
    get_front_rear O Corridor cor_poly position rel w ego c latthr angthr true lonthr = Some (front, rear) /\
    least_lon (fun a d =>
      (get_agent w (ag_id a) = Some a /\
       exists s', current_state a = Some s' /\ collide O (ag_shape a) s' (cor_poly c) = true) /\
      candidate O Corridor rel w ego s (ag_shape e) c latthr angthr a d /\ lonthr <= r_lon d) front.
Proof.
  intros. destruct (in_corridor_spec O Corridor cor_poly position rel w ego e s c latthr angthr lonthr)
    as (f & r & H5 & H6 & _); auto. eauto.
Qed.
Print Assumptions C09_front_is_nearest_ahead.

(* C09 (other mode): the same among the max_agents_front_rear+1 nearest agents only. *)
Theorem C09_front_nearest_mode :
  forall (T : Types) (O : Ops T) (Corridor : Type) cor_poly position rel (w : world T) ego e s (c : Corridor) latthr angthr lonthr dist,
  world_ok w -> index_fresh O w -> knn_contract O dist ->
  get_agent w ego = Some e -> current_state e = Some s ->
  exists ids front rear,
    get_front_rear O Corridor cor_poly position rel w ego c latthr angthr false lonthr = Some (front, rear) /\
    length ids = Nat.min (N.to_nat (w_maxfr w + 1)) (length (w_agents w)) /\ NoDup ids /\
    (forall i j a b ba bb, In i ids -> ~ In j ids -> get_agent w i = Some a -> get_agent w j = Some b ->
       agent_box O a ba -> agent_box O b bb -> dist ba (position s) <= dist bb (position s)) /\
    least_lon (fun a d => (get_agent w (ag_id a) = Some a /\ In (ag_id a) ids) /\
      candidate O Corridor rel w ego s (ag_shape e) c latthr angthr a d /\ lonthr <= r_lon d) front.
Proof.
  intros. destruct (nearest_mode_spec O Corridor cor_poly position rel w ego e s c latthr angthr lonthr dist)
    as (ids & f & r & H5 & H6 & H7 & H8 & H9 & _); auto. exists ids, f, r. auto.
Qed.
Print Assumptions C09_front_nearest_mode.

(* toy corridor: the line itself from -100 to 100 *)
Definition toy_rel (_ : unit) (x : Z) (_ : unit) (y : Z) (_ : unit) : frel :=
  mkRel 0 true (inject_Z (y - x)) 0.
Definition toy_line (xs : list (N * Z)) : world TT :=
  let w := toy_world (map (fun p => (fst p, toy_agent (fst p) (snd p) 1 VALID 50 0)) xs) false in
  set_rtree w (map (fun p => (snd p, fst p)) xs).
Definition toy_fr (w : world TT) (inc : bool) :=
  get_front_rear TO unit (fun _ => (-100, 100)%Z) (fun x => x) toy_rel w 1%N tt 1 1 inc 0.

(* C09 refuted in the second mode: with the default maximum of 4, the only agent ahead is missed
   when 4 agents behind are nearer. *)
Theorem C09_front_nearest_mode_all_agents_refuted :
  exists (w : world TT) leader,
    world_ok w /\ index_fresh TO w /\ knn_contract TO (fun b p => inject_Z (Z.abs (b - p))) /\ w_maxfr w = 4%N /\
    get_agent w 6%N = Some leader /\ live_at TO w leader /\
    candidate TO unit toy_rel w 1%N 0%Z tt tt 1 1 leader (mkRel 0 true 9 0) /\
    exists rear, toy_fr w false = Some (None, rear).
Proof.
  exists (toy_line [(1, 0%Z); (2, (-1)%Z); (3, (-2)%Z); (4, (-3)%Z); (5, (-4)%Z); (6, 9%Z)])%N,
    (toy_agent 6 9 1 VALID 50 0).
  split.
  { split; [repeat constructor|]. split; [|discriminate].
    intros k a H. apply m_find_In in H. cbn in H.
    destruct H as [H|[H|[H|[H|[H|[H|[]]]]]]]; inversion H; subst; (split; [reflexivity|]);
      unfold agent_ok, kept; cbn; split; (discriminate || lia). }
  split; [reflexivity|]. split; [exact toy_knn|]. split; [reflexivity|]. split; [reflexivity|].
  split; [split; reflexivity|]. split.
  { split; [discriminate|]. split; [split; reflexivity|]. split; [exists 9%Z; split; reflexivity|].
    split; discriminate. }
  eexists. vm_compute. reflexivity.
Qed.
Print Assumptions C09_front_nearest_mode_all_agents_refuted.

(* C10: what the code computes as "rear": the agent with the LEAST longitudinal difference among those
   below the threshold, i.e. the one farthest behind; none iff nobody is behind. *)
Theorem C10_rear_partial :
  forall (T : Types) (O : Ops T) (Corridor : Type) cor_poly position rel (w : world T) ego e s (c : Corridor) latthr angthr lonthr,
  world_ok w -> index_fresh O w -> box_contract O ->
  get_agent w ego = Some e -> current_state e = Some s ->
  let behind a d :=
      (get_agent w (ag_id a) = Some a /\
       exists s', current_state a = Some s' /\ collide O (ag_shape a) s' (cor_poly c) = true) /\
      candidate O Corridor rel w ego s (ag_shape e) c latthr angthr a d /\ r_lon d < lonthr in
  exists front rear,
    get_front_rear O Corridor cor_poly position rel w ego c latthr angthr true lonthr = Some (front, rear) /\
    least_lon behind rear /\
    (* if only one agent is behind it is the nearest one behind *)
    (forall a d, behind a d -> r_lon d < dbl_max -> (forall a' d', behind a' d' -> a' = a) -> rear = Some (a, d)).
Proof.
  intros T O Corridor cor_poly position rel w ego e s c latthr angthr lonthr Hok Hf Hb He Hs behind.
  destruct (in_corridor_spec O Corridor cor_poly position rel w ego e s c latthr angthr lonthr)
    as (f & r & H5 & _ & H6); auto. exists f, r. split; [exact H5|]. split; [exact H6|].
  intros a d Hbe Hmax Huniq. cbv zeta in H6. destruct r as [[a' d']|]; cbn [least_lon] in H6.
  - destruct H6 as (Hin & _ & _). fold (behind a' d') in Hin. assert (a' = a) by (apply (Huniq _ _ Hin)). subst a'.
    assert (d' = d) as ->; [|reflexivity].
    destruct Hin as (_ & Hc' & _). destruct Hbe as (_ & Hc & _).
    exact (candidate_fun O Corridor rel _ _ _ _ _ _ _ _ _ _ Hc' Hc).
  - exfalso. specialize (H6 a d Hbe). exact (Qlt_not_le _ _ Hmax H6).
Qed.
Print Assumptions C10_rear_partial.

(* C10 refuted: with two agents behind, the farther one is reported. *)
Theorem C10_rear_is_nearest_behind_refuted :
  exists (w : world TT) near far dn df front,
    world_ok w /\ index_fresh TO w /\
    get_agent w 2%N = Some near /\ get_agent w 3%N = Some far /\
    candidate TO unit toy_rel w 1%N 0%Z tt tt 1 1 near dn /\
    candidate TO unit toy_rel w 1%N 0%Z tt tt 1 1 far df /\
    r_lon df < r_lon dn /\ r_lon dn < 0 /\
    toy_fr w true = Some (front, Some (far, df)).
Proof.
  exists (toy_line [(1, 0%Z); (2, (-5)%Z); (3, (-50)%Z)])%N,
    (toy_agent 2 (-5) 1 VALID 50 0), (toy_agent 3 (-50) 1 VALID 50 0),
    (toy_rel tt 0%Z tt (-5)%Z tt), (toy_rel tt 0%Z tt (-50)%Z tt), None.
  split.
  { split; [repeat constructor|]. split; [|discriminate].
    intros k a H. apply m_find_In in H. cbn in H.
    destruct H as [H|[H|[H|[]]]]; inversion H; subst; (split; [reflexivity|]);
      unfold agent_ok, kept; cbn; split; (discriminate || lia). }
  split; [reflexivity|]. split; [reflexivity|]. split; [reflexivity|].
  split.
  { split; [discriminate|]. split; [split; reflexivity|]. split; [eexists; split; reflexivity|]. split; discriminate. }
  split.
  { split; [discriminate|]. split; [split; reflexivity|]. split; [eexists; split; reflexivity|]. split; discriminate. }
  split; [reflexivity|]. split; [reflexivity|]. vm_compute. reflexivity.
Qed.
Print Assumptions C10_rear_is_nearest_behind_refuted.

Example C09_nonvacuous :
  let w := toy_line [(1, 0%Z); (2, 7%Z); (3, 4%Z); (4, (-2)%Z)]%N in
  world_ok w /\ index_fresh TO w /\ box_contract TO /\
  exists a d rear, toy_fr w true = Some (Some (a, d), rear) /\ ag_id a = 3%N /\ r_lon d == 4 /\ rear <> None.
Proof.
  cbv zeta. split.
  { split; [repeat constructor|]. split; [|discriminate].
    intros k a H. apply m_find_In in H. cbn in H.
    destruct H as [H|[H|[H|[H|[]]]]]; inversion H; subst; (split; [reflexivity|]);
      unfold agent_ok, kept; cbn; split; (discriminate || lia). }
  split; [reflexivity|]. split; [exact toy_box|].
  do 3 eexists. split; [vm_compute; reflexivity|]. split; [reflexivity|]. split; [reflexivity|discriminate].
Qed.
