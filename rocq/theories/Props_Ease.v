(** C90: scenarios from lane corridor configurations. *)

From Coq Require Import List Arith Lia Bool QArith Qround ZArith Lqa.
Import ListNotations.
From Verif Require Import Model_Intersection Model_ScenGen Model_Readers Model_Ease Spec_Ease.
Local Open Scope nat_scope.
Local Open Scope list_scope.

Lemma Qle_bool_false a b : Qle_bool a b = false -> (b < a)%Q.
Proof. intros H. apply Qnot_le_lt. intros L. apply Qle_bool_iff in L. congruence. Qed.
Lemma uniform_bounds a b x : (a <= b)%Q -> (0 <= x)%Q -> (x < 1)%Q -> (a <= uniform a b x)%Q /\ (uniform a b x <= b)%Q.
Proof. intros L A B. unfold uniform. split; [assert (0 <= (b - a) * x)%Q by (apply Qmult_le_0_compat; lra); lra|].
  assert ((b - a) * x <= (b - a) * 1)%Q by (rewrite !(Qmult_comm (b - a)); apply Qmult_le_compat_r; lra). lra. Qed.

Section P.
Context {Line Pose Beh : Type}.
Variable pose_at : Line -> Q -> Pose.
Variable u : nat -> Q.
Variable rnd : nat -> nat -> nat.
Notation config := (config Line Beh). Notation eagent := (eagent Pose Beh).

Lemma fill_some fuel (c : config) ln s k id : fill pose_at u (S fuel) c ln (Some s) k id =
  if negb (Qle_bool s (c_smax c)) then Done ([], k, S id)
  else match fill pose_at u fuel c ln (Some (s + uniform (ds_min c) (ds_max c) (u k))%Q) (S (S k)) (S id) with
       | Done (l, k'', id') => Done (mkEA id s (pose_at ln s) (uniform (min_vel c) (max_vel c) (u (S k))) (Some (beh c)) :: l, k'', id')
       | Crash => Crash | OutOfFuel => OutOfFuel
       end.
Proof. cbn [fill next_state]. destruct (negb (Qle_bool s (c_smax c))); reflexivity. Qed.
Lemma fill_none fuel (c : config) ln k id : fill pose_at u (S fuel) c ln None k id =
  fill pose_at u (S fuel) c ln (Some (uniform 0 (ds_max c) (u k))) (S k) id.
Proof. cbn [fill next_state]. reflexivity. Qed.

Lemma fill_facts : forall fuel (c : config) ln s k id (l : list eagent) k' id', draws u -> (ds_min c <= ds_max c)%Q -> (min_vel c <= max_vel c)%Q ->
  fill pose_at u fuel c ln (Some s) k id = Done (l, k', id') ->
  spaced (ds_min c) (ds_max c) (c_smax c) (map e_s l) /\
  match map e_s l with [] => (c_smax c < s)%Q | s' :: _ => s' = s end /\
  (forall a, In a l -> (min_vel c <= e_vel a <= max_vel c)%Q /\ e_pose a = pose_at ln (e_s a) /\ e_beh a = Some (beh c)) /\
  map e_id l = seq id (length l) /\ id' = S (id + length l) /\ k' = k + 2 * length l.
Proof.
  induction fuel as [|fuel IH]; intros c ln s k id l k' id' D Hd Hv H; [discriminate|]. rewrite fill_some in H.
  destruct (Qle_bool s (c_smax c)) eqn:E; cbn [negb] in H.
  - destruct (fill pose_at u fuel c ln (Some (s + uniform (ds_min c) (ds_max c) (u k))%Q) (S (S k)) (S id)) as [[[r k2] id2]| |] eqn:F; try discriminate.
    injection H as <- <- <-. apply IH in F as (A1 & A2 & A3 & A4 & A5 & A6); auto. apply Qle_bool_iff in E.
    destruct (D k) as [D1 D2]. destruct (uniform_bounds _ _ _ Hd D1 D2) as [U1 U2].
    split; [|split; [reflexivity|split; [|split; [|split]]]].
    + cbn [map e_s spaced]. split; [assumption|]. destruct (map e_s r) as [|s' x]; [split; [lra|exact I]|]. subst s'. split; [split; lra|exact A1].
    + intros a [<-|I]; [|auto]. cbn. split; [|auto]. destruct (D (S k)) as [D3 D4]. now apply uniform_bounds.
    + cbn [map e_id length seq]. now rewrite A4.
    + cbn [length]. lia.
    + cbn [length]. lia.
  - injection H as <- <- <-. apply Qle_bool_false in E. cbn. repeat split; auto; try lia; destruct H.
Qed.

(** Positions, speeds, poses and models of the agents of one configuration. *)
Theorem C90_lane : forall fuel (c : config) ln k id (l : list eagent) k' id', draws u -> (ds_min c <= ds_max c)%Q -> (min_vel c <= max_vel c)%Q -> (0 <= ds_max c)%Q ->
  fill pose_at u fuel c ln None k id = Done (l, k', id') ->
  spaced (ds_min c) (ds_max c) (c_smax c) (map e_s l) /\
  match l with [] => (c_smax c < ds_max c)%Q | a :: _ => (0 <= e_s a <= ds_max c)%Q end /\
  (forall a, In a l -> (min_vel c <= e_vel a <= max_vel c)%Q /\ e_pose a = pose_at ln (e_s a) /\ e_beh a = Some (beh c)).
Proof.
  intros fuel c ln k id l k' id' D Hd Hv H0 H. destruct fuel as [|fuel]; [discriminate|]. rewrite fill_none in H.
  destruct (fill_facts _ _ _ _ _ _ _ _ _ D Hd Hv H) as (A1 & A2 & A3 & _). split; [assumption|]. split; [|assumption].
  destruct (D k) as [D1 D2]. destruct (uniform_bounds 0 (ds_max c) (u k)) as [U1 U2]; auto.
  destruct l as [|a l]; cbn in A2.
  - apply Qlt_le_trans with (uniform 0 (ds_max c) (u k)); assumption.
  - rewrite A2. auto.
Qed.

(** s_min plays no role. *)
Theorem C90_s_min_ignored_refuted : forall fuel ln k id ln' sm1 sm2 smax d1 d2 v1 v2 (b : Beh) cb ci,
  fill pose_at u fuel (mkCfg ln' sm1 smax d1 d2 v1 v2 b cb ci) ln None k id = fill pose_at u fuel (mkCfg ln' sm2 smax d1 d2 v1 v2 b cb ci) ln None k id.
Proof.
  assert (G : forall fuel ln cur k id ln' sm1 sm2 smax d1 d2 v1 v2 (b : Beh) cb ci,
    fill pose_at u fuel (mkCfg ln' sm1 smax d1 d2 v1 v2 b cb ci) ln cur k id = fill pose_at u fuel (mkCfg ln' sm2 smax d1 d2 v1 v2 b cb ci) ln cur k id).
  { induction fuel as [|fuel IH]; intros; [reflexivity|]. cbn [fill]. unfold next_state. cbn.
    destruct cur; cbn; destruct (Qle_bool _ smax); cbn; try reflexivity; now rewrite (IH _ _ _ _ ln' sm1 sm2). }
  intros. apply G.
Qed.

(** Two agents beyond the end of the line stand at the same place. *)
Theorem C90_stacked_refuted : forall fuel (c : config) ln k id (l : list eagent) k' id' len a b, draws u -> (ds_min c <= ds_max c)%Q -> (min_vel c <= max_vel c)%Q -> (0 <= ds_max c)%Q ->
  (forall s, (len <= s)%Q -> pose_at ln s = pose_at ln len) ->
  fill pose_at u fuel c ln None k id = Done (l, k', id') -> In a l -> In b l -> (len <= e_s a)%Q -> (len <= e_s b)%Q -> e_pose a = e_pose b.
Proof.
  intros fuel c ln k id l k' id' len a b D Hd Hv H0 E H Ia Ib La Lb. destruct (C90_lane _ _ _ _ _ _ _ _ D Hd Hv H0 H) as (_ & _ & A).
  destruct (A a Ia) as (_ & -> & _). destruct (A b Ib) as (_ & -> & _). rewrite (E _ La), (E _ Lb). reflexivity.
Qed.

(** It ends if the gaps are positive. *)
Lemma fill_ends : forall n (c : config) ln s k id, draws u -> (0 < ds_min c)%Q -> (ds_min c <= ds_max c)%Q ->
  (c_smax c < s + inject_Z (Z.of_nat n) * ds_min c)%Q -> exists r, fill pose_at u (S n) c ln (Some s) k id = Done r.
Proof.
  induction n as [|n IH]; intros c ln s k id D P Hd H.
  - rewrite fill_some. destruct (Qle_bool s (c_smax c)) eqn:E; [|eexists; reflexivity]. apply Qle_bool_iff in E. change (inject_Z (Z.of_nat 0)) with 0%Q in H. lra.
  - rewrite fill_some. destruct (Qle_bool s (c_smax c)) eqn:E; [|eexists; reflexivity]. cbn [negb].
    destruct (D k) as [D1 D2]. destruct (uniform_bounds _ _ _ Hd D1 D2) as [U1 U2].
    destruct (IH c ln (s + uniform (ds_min c) (ds_max c) (u k))%Q (S (S k)) (S id) D P Hd) as [[[r k2] id2] F].
    { rewrite Nat2Z.inj_succ, <- Z.add_1_r, inject_Z_plus in H. change (inject_Z 1) with 1%Q in H. rewrite Qmult_plus_distr_l, Qmult_1_l in H. set (w := (inject_Z (Z.of_nat n) * ds_min c)%Q) in *. set (z := uniform (ds_min c) (ds_max c) (u k)) in *. lra. }
    rewrite F. eexists. reflexivity.
Qed.
Theorem C90_ends : forall (c : config) ln k id, draws u -> (0 < ds_min c)%Q -> (ds_min c <= ds_max c)%Q ->
  exists n0, forall fuel, n0 <= fuel -> exists r, fill pose_at u fuel c ln None k id = Done r.
Proof.
  intros c ln k id D P Hd.
  assert (X : exists n, (c_smax c < inject_Z (Z.of_nat n) * ds_min c)%Q).
  { exists (Z.to_nat (Z.max 0 (Qfloor (c_smax c / ds_min c)) + 1)). rewrite Z2Nat.id by lia.
    pose proof (Qlt_floor (c_smax c / ds_min c)) as F. apply (Qmult_lt_r _ _ _ P) in F.
    assert (Q0 : (c_smax c / ds_min c * ds_min c == c_smax c)%Q) by (field; lra). rewrite Q0 in F. eapply Qlt_le_trans; [exact F|].
    apply Qmult_le_compat_r; [|lra]. rewrite <- Zle_Qle. lia. }
  destruct X as [n X]. exists (S n). intros fuel L. destruct fuel as [|fuel]; [lia|]. rewrite fill_none.
  destruct (D k) as [D1 D2]. destruct (uniform_bounds 0 (ds_max c) (u k)) as [U1 U2]; auto; [lra|].
  apply fill_ends; auto. assert (inject_Z (Z.of_nat n) <= inject_Z (Z.of_nat fuel))%Q by (rewrite <- Zle_Qle; lia).
  assert (inject_Z (Z.of_nat n) * ds_min c <= inject_Z (Z.of_nat fuel) * ds_min c)%Q by (apply Qmult_le_compat_r; lra). lra.
Qed.

(** And never if they are not. *)
Theorem C90_endless_refuted : forall fuel (c : config) ln k id, draws u -> (ds_min c <= ds_max c)%Q -> (ds_max c <= 0)%Q -> (0 <= c_smax c)%Q ->
  fill pose_at u fuel c ln None k id = OutOfFuel.
Proof.
  assert (G : forall fuel (c : config) ln s k id, draws u -> (ds_min c <= ds_max c)%Q -> (ds_max c <= 0)%Q -> (s <= c_smax c)%Q ->
    fill pose_at u fuel c ln (Some s) k id = OutOfFuel).
  { induction fuel as [|fuel IH]; intros c ln s k id D Hd H0 H; [reflexivity|]. rewrite fill_some.
    assert (E : Qle_bool s (c_smax c) = true) by now apply Qle_bool_iff. rewrite E. cbn [negb].
    destruct (D k) as [D1 D2]. destruct (uniform_bounds _ _ _ Hd D1 D2) as [U1 U2]. rewrite IH; auto. lra. }
  intros fuel c ln k id D Hd H0 H. destruct fuel as [|fuel]; [reflexivity|]. rewrite fill_none. apply G; auto.
  destruct (D k) as [D1 D2]. unfold uniform. assert (- ds_max c * 0 <= - ds_max c * u k)%Q by (rewrite !(Qmult_comm (- ds_max c)); apply Qmult_le_compat_r; lra). lra.
Qed.

(** Number of agents. *)
Theorem C90_count : forall fuel (c : config) ln k id (l : list eagent) k' id', draws u -> (0 < ds_min c)%Q -> (ds_min c <= ds_max c)%Q -> (min_vel c <= max_vel c)%Q -> (0 <= ds_max c)%Q ->
  fill pose_at u fuel c ln None k id = Done (l, k', id') ->
  (inject_Z (Z.of_nat (length l)) * ds_min c <= (if Nat.eqb (length l) 0 then 0 else c_smax c + ds_min c))%Q /\
  (c_smax c < inject_Z (Z.of_nat (length l) + 1) * ds_max c)%Q.
Proof.
  assert (G1 : forall lo hi top s l, (0 < lo)%Q -> (lo <= hi)%Q -> spaced lo hi top (s :: l) -> (s + inject_Z (Z.of_nat (length l)) * lo <= top)%Q /\ (top < s + inject_Z (Z.of_nat (length l) + 1) * hi)%Q).
  { intros lo hi top s l P L. revert s. induction l as [|s2 l IH]; intros s S.
    - cbn in S. destruct S as (A & B & _). change (length (@nil Q)) with 0%nat. change (inject_Z (Z.of_nat 0)) with 0%Q. change (inject_Z (Z.of_nat 0 + 1)) with 1%Q. split; lra.
    - change ((s <= top)%Q /\ ((lo <= s2 - s)%Q /\ (s2 - s <= hi)%Q) /\ spaced lo hi top (s2 :: l)) in S. destruct S as (A & (B1 & B2) & S). destruct (IH s2 S) as [C1 C2].
      cbn [length]. rewrite Nat2Z.inj_succ, <- Z.add_1_r. rewrite (inject_Z_plus (Z.of_nat (length l) + 1) 1). rewrite (inject_Z_plus (Z.of_nat (length l)) 1) in *. change (inject_Z 1) with 1%Q in *. split; lra. }
  intros fuel c ln k id l k' id' D P Hd Hv H0 H. destruct (C90_lane _ _ _ _ _ _ _ _ D Hd Hv H0 H) as (A1 & A2 & _).
  destruct l as [|a l].
  - cbn [length Nat.eqb]. change (inject_Z (Z.of_nat 0)) with 0%Q. change (inject_Z (Z.of_nat 0 + 1)) with 1%Q. split; lra.
  - cbn [map] in A1. destruct (G1 _ _ _ _ _ P Hd A1) as [B1 B2]. rewrite map_length in *. cbn [length Nat.eqb]. rewrite Nat2Z.inj_succ, <- Z.add_1_r.
    rewrite (inject_Z_plus (Z.of_nat (length l) + 1) 1). rewrite (inject_Z_plus (Z.of_nat (length l)) 1) in *. change (inject_Z 1) with 1%Q in *. split; lra.
Qed.

(* ---- one configuration, one scenario ---- *)
Lemma set_beh_ids : forall (l : list eagent) i b, map e_id (set_beh l i b) = map e_id l.
Proof. induction l as [|a l IH]; intros [|i] b; cbn; auto. now rewrite IH. Qed.
Lemma set_beh_nth : forall (l : list eagent) i b j, nth_error (set_beh l i b) j =
  match nth_error l j with Some a => Some (if Nat.eqb i j then mkEA (e_id a) (e_s a) (e_pose a) (e_vel a) b else a) | None => None end.
Proof. induction l as [|a l IH]; intros [|i] b [|j]; cbn; auto; destruct (nth_error l j); reflexivity. Qed.

(** With controlled_ids given (whatever it contains) exactly one agent of the configuration
    is controlled; without, none.  With no agent to choose from it raises. *)
Theorem C90_controlled : forall (c : config) (l : list eagent) k, picks rnd ->
  match ctrl_ids c with
  | None => controlled rnd c l k = inl (l, [], k)
  | Some _ =>
      (l = [] -> controlled rnd c l k = inr ValueError) /\
      (l <> [] -> exists i a l', nth_error l i = Some a /\ controlled rnd c l k = inl (l', [e_id a], S k) /\
         forall j b, nth_error l j = Some b -> exists b', nth_error l' j = Some b' /\ e_id b' = e_id b /\ e_s b' = e_s b /\
           e_pose b' = e_pose b /\ e_vel b' = e_vel b /\
           (j <> i -> e_beh b' = e_beh b) /\ (j = i -> e_beh b' = match ctrl_beh c with None => Some (beh c) | Some _ => None end))
  end.
Proof.
  intros c l k P. unfold controlled. destruct (ctrl_ids c); [|reflexivity]. split.
  - intros ->. destruct (rnd k (length (@nil eagent))); reflexivity.
  - intros N. assert (L : rnd k (length l) < length l) by (apply P; destruct l; [congruence|cbn; lia]).
    destruct (nth_error l (rnd k (length l))) as [a|] eqn:E; [|apply nth_error_None in E; lia].
    exists (rnd k (length l)), a. eexists. split; [exact E|]. split; [reflexivity|]. intros j b Ej. rewrite set_beh_nth, Ej. eexists. split; [reflexivity|].
    destruct (Nat.eqb (rnd k (length l)) j) eqn:Q; cbn.
    + apply Nat.eqb_eq in Q. repeat split; auto. intros X. congruence.
    + apply Nat.eqb_neq in Q. repeat split; auto. intros X. congruence.
Qed.

(** So a controlled behavior model given in the configuration leaves the controlled agent
    without any behavior model. *)
Theorem C90_controlled_model_refuted : forall (c : config) (l : list eagent) k m ids, picks rnd -> ctrl_ids c = Some ids -> ctrl_beh c = Some m -> l <> [] ->
  exists i l' b, controlled rnd c l k = inl (l', [e_id b], S k) /\ nth_error l' i = Some b /\ e_beh b = None.
Proof.
  intros c l k m ids P E1 E2 N. pose proof (C90_controlled c l k P) as H. rewrite E1, E2 in H. destruct H as [_ H].
  destruct (H N) as (i & a & l' & A1 & A2 & A3). destruct (A3 i a A1) as (b & B1 & B2 & _ & _ & _ & _ & B3).
  exists i, l', b. rewrite B2. auto.
Qed.

Lemma one_config_ids fuel (c : config) k id l ids k' id' : draws u -> (ds_min c <= ds_max c)%Q -> (min_vel c <= max_vel c)%Q ->
  one_config pose_at u rnd fuel c k id = Done (inl (l, ids, k', id')) ->
  map e_id l = seq id (length l) /\ id' = S (id + length l) /\ incl ids (map e_id l) /\
  length ids = match ctrl_ids c with None => 0 | Some _ => 1 end.
Proof.
  intros D Hd Hv H. unfold one_config in H.
  assert (C : forall (l0 : list eagent) k0 (l1 : list eagent) ids1 k1, controlled rnd c l0 k0 = inl (l1, ids1, k1) -> map e_id l1 = map e_id l0 /\ incl ids1 (map e_id l0) /\ length ids1 = match ctrl_ids c with None => 0 | Some _ => 1 end).
  { intros l0 k0 l1 ids1 k1 Q. unfold controlled in Q. destruct (ctrl_ids c).
    - destruct (nth_error l0 (rnd k0 (length l0))) as [a|] eqn:E; [|discriminate]. injection Q as <- <- <-. rewrite set_beh_ids.
      split; [reflexivity|]. split; [|reflexivity]. intros x [<-|[]]. apply in_map. eapply nth_error_In. exact E.
    - injection Q as <- <- <-. split; [reflexivity|]. split; [intros x []|reflexivity]. }
  destruct (lane c) as [[ln|e]|].
  - destruct (fill pose_at u fuel c ln None k id) as [[[l0 k0] id0]| |] eqn:F; try discriminate.
    destruct (controlled rnd c l0 k0) as [[[l1 ids1] k1]|e] eqn:Q; [|discriminate]. injection H as <- <- <- <-.
    destruct fuel as [|fuel]; [discriminate|]. rewrite fill_none in F.
    destruct (fill_facts _ _ _ _ _ _ _ _ _ D Hd Hv F) as (_ & _ & _ & A4 & A5 & _). destruct (C _ _ _ _ _ Q) as (C1 & C2 & C3).
    assert (LL : length l1 = length l0) by (rewrite <- (map_length e_id l1), C1; apply map_length).
    rewrite C1, LL. repeat split; auto.
  - discriminate.
  - destruct (controlled rnd c [] k) as [[[l1 ids1] k1]|e] eqn:Q; [|discriminate]. injection H as <- <- <- <-.
    destruct (C _ _ _ _ _ Q) as (C1 & C2 & C3). destruct l1 as [|x l1]; [|discriminate]. cbn in *. repeat split; auto.
Qed.

(** Ids of a scenario: increasing over the agent list, so all different; every
    configuration leaves one number out.  The controlled ones are agents of the scenario,
    one per configuration that asks for it. *)
Fixpoint ids_from (i : nat) (ns : list nat) : list nat :=
  match ns with [] => [] | n :: r => seq i n ++ ids_from (S (i + n)) r end.
Theorem C90_ids : forall fuel (cs : list config) k l ids k', draws u ->
  Forall (fun c => (ds_min c <= ds_max c)%Q /\ (min_vel c <= max_vel c)%Q) cs ->
  create_one pose_at u rnd fuel cs k = Done (inl (l, ids, k')) ->
  (exists ns, length ns = length cs /\ map e_id l = ids_from 0 ns) /\ NoDup (map e_id l) /\ incl ids (map e_id l) /\
  length ids = length (filter (fun c : config => match ctrl_ids c with None => false | Some _ => true end) cs).
Proof.
  assert (G0 : forall ns i x, In x (ids_from i ns) -> i <= x).
  { induction ns as [|n ns IH]; intros i x I; [destruct I|]. cbn in I. apply in_app_or in I as [I|I]; [apply in_seq in I; lia|]. apply IH in I. lia. }
  assert (G1 : forall ns i, NoDup (ids_from i ns)).
  { induction ns as [|n ns IH]; intros i; cbn; [constructor|]. 
    assert (A : forall (a b : list nat), NoDup a -> NoDup b -> (forall x, In x a -> ~ In x b) -> NoDup (a ++ b)).
    { induction a as [|y a IHa]; intros b Na Nb Dj; cbn; [assumption|]. inversion Na; subst. constructor.
      - intros I. apply in_app_or in I as [I|I]; [contradiction|]. apply (Dj y); [now left|assumption].
      - apply IHa; auto. intros x I. apply Dj. now right. }
    apply A; [apply seq_NoDup|apply IH|]. intros x I J. apply in_seq in I. apply G0 in J. lia. }
  assert (G2 : forall fuel (cs : list config) k id l ids k', draws u -> Forall (fun c => (ds_min c <= ds_max c)%Q /\ (min_vel c <= max_vel c)%Q) cs ->
    all_configs pose_at u rnd fuel cs k id = Done (inl (l, ids, k')) ->
    (exists ns, length ns = length cs /\ map e_id l = ids_from id ns) /\ incl ids (map e_id l) /\
    length ids = length (filter (fun c : config => match ctrl_ids c with None => false | Some _ => true end) cs)).
  { intros fuel cs. induction cs as [|c cs IH]; intros k id l ids k' D F H; cbn in H.
    - injection H as <- <- <-. split; [exists []; auto|]. split; [intros x []|reflexivity].
    - inversion F as [|? ? [F1 F2] F3]; subst. destruct (one_config pose_at u rnd fuel c k id) as [[[[[l1 ids1] k1] id1]|e]| |] eqn:E; try discriminate.
      destruct (all_configs pose_at u rnd fuel cs k1 id1) as [[[[l2 ids2] k2]|e]| |] eqn:E2; try discriminate. injection H as <- <- <-.
      destruct (one_config_ids _ _ _ _ _ _ _ _ D F1 F2 E) as (A1 & A2 & A3 & A4). destruct (IH _ _ _ _ _ D F3 E2) as ((ns & B1 & B2) & B3 & B4).
      split; [|split].
      + exists (length l1 :: ns). split; [cbn; lia|]. rewrite map_app, A1, B2, A2. reflexivity.
      + rewrite map_app. intros x I. apply in_or_app. apply in_app_or in I as [I|I]; auto.
      + rewrite app_length, A4, B4. cbn [filter]. destruct (ctrl_ids c); reflexivity. }
  intros fuel cs k l ids k' D F H. destruct (G2 _ _ _ _ _ _ _ D F H) as ((ns & B1 & B2) & B3 & B4). split; [eauto|]. split; [rewrite B2; apply G1|auto].
Qed.

(** Every scenario of the list is made by the same configurations from later draws. *)
Theorem C90_all_scenarios : forall n fuel (cs : list config) k r, create_many pose_at u rnd fuel n cs k = Done (inl r) ->
  length r = n /\ forall l ids, In (l, ids) r -> exists k0 k1, k <= k0 /\ create_one pose_at u rnd fuel cs k0 = Done (inl (l, ids, k1)).
Proof.
  assert (K : forall fuel (cs : list config) k id l ids k', all_configs pose_at u rnd fuel cs k id = Done (inl (l, ids, k')) -> k <= k').
  { assert (K0 : forall fuel (c : config) ln cur k id l k' id', fill pose_at u fuel c ln cur k id = Done (l, k', id') -> k <= k').
    { induction fuel as [|fuel IH]; intros c ln cur k id l k' id' H; [discriminate|].
      assert (Z : forall s k0, fill pose_at u (S fuel) c ln (Some s) k0 id = Done (l, k', id') -> k0 <= k').
      { intros s k0 Q. rewrite fill_some in Q. destruct (negb (Qle_bool s (c_smax c))); [injection Q; lia|].
        destruct (fill pose_at u fuel c ln _ (S (S k0)) (S id)) as [[[l2 k2] id2]| |] eqn:E; try discriminate. apply IH in E. injection Q. lia. }
      destruct cur as [s|]; [eauto|]. rewrite fill_none in H. apply Z in H. lia. }
    assert (K1 : forall (c : config) (l : list eagent) k (l' : list eagent) ids k', controlled rnd c l k = inl (l', ids, k') -> k <= k').
    { intros c l k l' ids k' Q. unfold controlled in Q. destruct (ctrl_ids c); [|injection Q; lia]. destruct (nth_error l (rnd k (length l))); [|discriminate]. injection Q; lia. }
    intros fuel cs. induction cs as [|c cs IH]; intros k id l ids k' H; cbn in H; [injection H; lia|].
    destruct (one_config pose_at u rnd fuel c k id) as [[[[[l1 ids1] k1] id1]|e]| |] eqn:E; try discriminate.
    destruct (all_configs pose_at u rnd fuel cs k1 id1) as [[[[l2 ids2] k2]|e]| |] eqn:E2; try discriminate.
    apply IH in E2. assert (k2 = k') by (injection H; auto). subst k2. enough (k <= k1) by lia. unfold one_config in E. destruct (lane c) as [[ln|e]|]; [|discriminate|].
    - destruct (fill pose_at u fuel c ln None k id) as [[[l0 k0] id0]| |] eqn:F; try discriminate. apply K0 in F.
      destruct (controlled rnd c l0 k0) as [[[l3 ids3] k3]|] eqn:Q; [|discriminate]. apply K1 in Q. injection E; lia.
    - destruct (controlled rnd c [] k) as [[[l3 ids3] k3]|] eqn:Q; [|discriminate]. apply K1 in Q. injection E; lia. }
  induction n as [|n IH]; intros fuel cs k r H; cbn in H.
  - injection H as <-. split; [reflexivity|]. intros l ids [].
  - destruct (create_one pose_at u rnd fuel cs k) as [[[[l0 ids0] k0]|e]| |] eqn:E; try discriminate.
    destruct (create_many pose_at u rnd fuel n cs k0) as [[r0|e]| |] eqn:F; try discriminate. injection H as <-.
    destruct (IH _ _ _ _ F) as [A1 A2]. split; [cbn; lia|]. intros l ids [Q|I].
    + injection Q as <- <-. exists k, k0. auto.
    + destruct (A2 l ids I) as (k1 & k2 & B1 & B2). exists k1, k2. split; [|assumption]. apply K in E. lia.
Qed.
End P.
Print Assumptions C90_lane. Print Assumptions C90_s_min_ignored_refuted. Print Assumptions C90_stacked_refuted.
Print Assumptions C90_ends. Print Assumptions C90_endless_refuted. Print Assumptions C90_count.
Print Assumptions C90_controlled. Print Assumptions C90_controlled_model_refuted. Print Assumptions C90_ids.
Print Assumptions C90_all_scenarios.

(* ---- the hypotheses are met ---- *)
Definition half (k : nat) : Q := (1#2)%Q.
Definition first (k n : nat) : nat := 0.
Definition pose (ln : Q) (s : Q) : Q := if Qle_bool ln s then ln else s.     (* the line ends at [ln] *)
Definition cfg (c : option (list Z)) (m : option bool) : config Q bool := mkCfg (Some (inl 30%Q)) 40 60 10 20 8 10 true m c.
Example C90_nonvacuous :
  draws half /\ picks first /\
  (exists l k id, fill pose half 10 (cfg None None) 30%Q None 0 0 = Done (l, k, id) /\
     map (fun a => Qred (e_s a)) l = [10; 25; 40; 55]%Q /\ map e_id l = [0; 1; 2; 3] /\ map (fun a => Qred (e_pose a)) l = [10; 25; 30; 30]%Q) /\
  (exists l k, create_one pose half first 10 [cfg (Some []) (Some false); cfg None None] 0 = Done (inl (l, [0], k)) /\
     map e_id l = [0; 1; 2; 3; 5; 6; 7; 8] /\ map e_beh l = [None; Some true; Some true; Some true; Some true; Some true; Some true; Some true]) /\
  create_one pose half first 10 [mkCfg (Some (inl 30%Q)) 0 5 10 20 8 10 true None (Some [0%Z])] 0 = Done (inr ValueError).
Proof.
  split; [intros k; unfold half; split; [discriminate|reflexivity]|]. split; [intros k n H; exact H|].
  split; [do 3 eexists; split; [vm_compute; reflexivity|repeat split; reflexivity]|].
  split; [do 2 eexists; split; [vm_compute; reflexivity|split; reflexivity]|]. vm_compute. reflexivity.
Qed.
