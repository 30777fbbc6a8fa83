(** C86: placing vehicles along lanes.  C87: which agents are controlled and which
    goals they get. *)

From Coq Require Import List Arith Lia Bool QArith ZArith Lqa.
Import ListNotations.
From Verif Require Import Model_Intersection Model_Runtime Model_ScenGen Model_Readers.
Local Open Scope nat_scope.
Local Open Scope list_scope.

(** Consecutive members of a list are related. *)
Fixpoint linked {A} (P : A -> A -> Prop) (l : list A) : Prop :=
  match l with x :: (y :: _) as r => P x y /\ linked P r | _ => True end.

Lemma uniform_between a b u : (a <= b -> 0 <= u -> u <= 1 -> a <= uniform a b u <= b)%Q.
Proof. unfold uniform. intros. nra. Qed.

Section C86.
Variables (d_min d_max v_min v_max front rear : Q) (u : nat -> Q).
Hypothesis U : forall k, (0 <= u k <= 1)%Q.
Hypothesis D : (d_min <= d_max)%Q.
Hypothesis V : (v_min <= v_max)%Q.
Notation place := (place d_min d_max v_min v_max front rear u).

(** Positions start at the begin of the range, the gap between the rear of a car and the
    front of the one behind it lies in VehicleDistanceRange, speeds lie in their
    range, all cars lie in the range, and no further car would fit. *)
Theorem C86_spacing : forall fuel s s_end k l k', place fuel s s_end k = Done (l, k') ->
  ((s < s_end)%Q -> exists v r, l = (s, v) :: r) /\ ((s_end <= s)%Q -> l = []) /\
  linked (fun a b => (d_min <= (fst b - rear) - (fst a + front) <= d_max)%Q) l /\
  ((0 <= front + rear + d_min)%Q -> Forall (fun a => (s <= fst a < s_end)%Q) l) /\
  Forall (fun a => (v_min <= snd a <= v_max)%Q) l /\
  (forall a, last (map Some l) None = Some a -> (s_end <= fst a + front + rear + d_max)%Q) /\
  k' = k + 2 * length l.
Proof.
  induction fuel as [|n IH]; intros s s_end k l k' H; cbn [Model_Readers.place] in H; [discriminate|].
  destruct (Qle_bool s_end s) eqn:B.
  - injection H as <- <-. apply Qle_bool_iff in B. cbn. repeat split; auto; try constructor; try lia.
    + intros X. exfalso. lra.
    + discriminate.
  - assert (Lt : (s < s_end)%Q).
    { destruct (Qlt_le_dec s s_end) as [|X]; [assumption|]. apply Qle_bool_iff in X. congruence. }
    cbv zeta in H. set (g := uniform d_min d_max (u (S k))) in *.
    pose proof (uniform_between d_min d_max (u (S k)) D (proj1 (U _)) (proj2 (U _))) as HG. fold g in HG.
    pose proof (uniform_between v_min v_max (u k) V (proj1 (U _)) (proj2 (U _))) as HV.
    destruct (place n _ s_end (S (S k))) as [[l1 k1]| |] eqn:P; try discriminate. injection H as <- <-.
    destruct (IH _ _ _ _ _ P) as (A1 & A2 & A3 & A4 & A5 & A6 & A7).
    split; [eauto|]. split; [intros; exfalso; lra|]. split.
    { cbn. destruct l1 as [|[s2 v2] r2]; [exact I|]. split; [|exact A3]. cbn.
      destruct (Qlt_le_dec (s + (front + rear + g)) s_end) as [X|X].
      - destruct (A1 X) as (v & r & E). injection E as -> _ _. lra.
      - discriminate (A2 X). }
    split.
    { intros NN. constructor; [cbn; lra|]. eapply Forall_impl; [|exact (A4 NN)]. cbn. intros a [X1 X2]. lra. }
    split; [constructor; [exact HV|exact A5]|]. split.
    { intros a Ha. destruct l1 as [|x r]; [|apply A6; exact Ha]. cbn in Ha. injection Ha as <-. cbn [fst].
      destruct (Qlt_le_dec (s + (front + rear + g)) s_end) as [X|X]; [|lra].
      destruct (A1 X) as (? & ? & E). discriminate. }
    cbn. lia.
Qed.

Lemma place_done : forall m fuel s s_end k, m < fuel ->
  (0 < front + rear + d_min)%Q -> (s_end <= s + inject_Z (Z.of_nat m) * (front + rear + d_min))%Q ->
  exists l k', place fuel s s_end k = Done (l, k') /\ length l <= m.
Proof.
  induction m as [|m IH]; intros [|n] s s_end k Hf Hp Hs; try lia; cbn [Model_Readers.place].
  - replace (Qle_bool s_end s) with true; [eexists [], _; split; [reflexivity|cbn; lia]|].
    symmetry. apply Qle_bool_iff. change (inject_Z (Z.of_nat 0)) with 0%Q in Hs. lra.
  - destruct (Qle_bool s_end s) eqn:B; [eexists [], _; split; [reflexivity|cbn; lia]|]. cbv zeta.
    pose proof (uniform_between d_min d_max (u (S k)) D (proj1 (U _)) (proj2 (U _))) as HG.
    edestruct (IH n (s + (front + rear + uniform d_min d_max (u (S k))))%Q s_end (S (S k))) as (l & k' & E & L);
      [lia|assumption| |].
    + replace (Z.of_nat (S m)) with (Z.of_nat m + 1)%Z in Hs by lia. rewrite inject_Z_plus in Hs.
      change (inject_Z 1) with 1%Q in Hs. lra.
    + rewrite E. eexists _, _. split; [reflexivity|]. cbn. lia.
Qed.

(** Placing always ends if the smallest step is positive, and the number of cars is
    bounded by the length of the range divided by it. *)
Theorem C86_terminates s s_end k m : (0 < front + rear + d_min)%Q ->
  (s_end - s <= inject_Z (Z.of_nat m) * (front + rear + d_min))%Q ->
  exists l k', (forall fuel, m < fuel -> place fuel s s_end k = Done (l, k')) /\ length l <= m.
Proof.
  intros Hp Hs. destruct (place_done m (S m) s s_end k) as (l & k' & E & L); [lia|assumption|lra|].
  exists l, k'. split; [|exact L]. intros fuel Hf.
  assert (Mono : forall f g s k x, place f s s_end k = Done x -> f <= g -> place g s s_end k = Done x).
  { clear. induction f as [|f IH]; intros g s k x H Hg; cbn [Model_Readers.place] in H; [discriminate|].
    destruct g as [|g]; [lia|]. cbn [Model_Readers.place]. destruct (Qle_bool s_end s); [assumption|].
    cbv zeta in *.
    destruct (place f _ s_end (S (S k))) as [[l1 k1]| |] eqn:P; try discriminate.
    rewrite (IH g _ _ _ P) by lia. assumption. }
  eapply Mono; [exact E|lia].
Qed.

(** It never ends if the largest step is not positive. *)
Theorem C86_diverges s s_end : (front + rear + d_max <= 0)%Q -> (s < s_end)%Q ->
  forall fuel k, place fuel s s_end k = OutOfFuel.
Proof.
  intros Hn Hs fuel. revert s Hs. induction fuel as [|n IH]; intros s Hs k; cbn [Model_Readers.place]; [reflexivity|].
  destruct (Qle_bool s_end s) eqn:B; [apply Qle_bool_iff in B; lra|]. cbv zeta.
  pose proof (uniform_between d_min d_max (u (S k)) D (proj1 (U _)) (proj2 (U _))) as HG.
  rewrite IH; [reflexivity|]. lra.
Qed.

Context {Lane : Type}.
Variable length_of : Lane -> Q.
Variables (s0 s1 : Q).
Notation all_lanes := (all_lanes d_min d_max v_min v_max front rear u length_of s0 s1).
Notation reader := (uniform_reader d_min d_max v_min v_max front rear u length_of s0 s1).

Lemma all_lanes_in fuel : forall l k x, all_lanes fuel l k = Done x ->
  forall ln a p, In (ln, a, p) x -> In (ln, p) l /\ exists k1 k2 ags,
    place fuel (s0 * length_of ln) (s1 * length_of ln) k1 = Done (ags, k2) /\ In a ags.
Proof.
  induction l as [|[ln0 p0] l IH]; intros k x H ln a p Hin; cbn [Model_Readers.all_lanes] in H.
  - injection H as <-. destruct Hin.
  - destruct (agents_along _ _ _ _ _ _ _ _ _ _ fuel ln0 k) as [[ags k']| |] eqn:P; try discriminate.
    destruct (all_lanes fuel l k') as [y| |] eqn:Q; try discriminate. injection H as <-.
    apply in_app_iff in Hin as [Hin|Hin].
    + apply in_map_iff in Hin as (a0 & E & Ha). injection E as <- <- <-. split; [now left|].
      unfold agents_along in P. eauto 6.
    + destruct (IH _ _ Q _ _ _ Hin) as [H1 H2]. split; [now right|assumption].
Qed.

(** Every car lies within SRange of its lane. *)
Theorem C86_in_range fuel lanes lp k x : (0 <= front + rear + d_min)%Q -> reader fuel lanes lp k = Done x ->
  forall ln s v p, In (ln, (s, v), p) x ->
    (s0 * length_of ln <= s < s1 * length_of ln)%Q /\ (v_min <= v <= v_max)%Q.
Proof.
  intros NN H ln s v p Hin. unfold uniform_reader in H.
  destruct (select_lanes lanes lp) as [[ls ps]|]; [|discriminate].
  destruct (all_lanes_in _ _ _ _ H _ _ _ Hin) as [_ (k1 & k2 & ags & P & Ha)].
  destruct (C86_spacing _ _ _ _ _ _ P) as (_ & _ & _ & A4 & A5 & _).
  specialize (A4 NN). rewrite Forall_forall in A4, A5. split; [apply (A4 _ Ha)|apply (A5 _ Ha)].
Qed.

Lemma gmap_combine {A B} (f : A -> gres B) : forall l ls, gmap f l = inl ls ->
  forall b a, In (b, a) (combine ls l) -> f a = inl b.
Proof.
  induction l as [|x l IH]; intros ls H b a Hin; cbn in H.
  - injection H as <-. destruct Hin.
  - destruct (f x) as [y|] eqn:F; [|discriminate]. destruct (gmap f l) as [ys|] eqn:Q; [|discriminate].
    injection H as <-. cbn in Hin. destruct Hin as [E|Hin]; [injection E as <- <-; exact F|eauto].
Qed.

(** With LanePositions given, the position recorded for a car names the lane it stands on. *)
Theorem C86_lane_recorded fuel lanes p0 lp k x : reader fuel lanes (Some (p0 :: lp)) k = Done x ->
  forall ln a p, In (ln, a, p) x -> In p (p0 :: lp) /\ py_index lanes p = Some ln.
Proof.
  intros H ln a p Hin. unfold uniform_reader, select_lanes in H.
  destruct (gmap (idx_or lanes) (p0 :: lp)) as [ls|] eqn:Gm; [|discriminate].
  destruct (all_lanes_in _ _ _ _ H _ _ _ Hin) as [Hc _]. split.
  - eapply in_combine_r; exact Hc.
  - pose proof (gmap_combine _ _ _ Gm _ _ Hc) as F. unfold idx_or in F.
    destruct (py_index lanes p); [injection F as ->; reflexivity|discriminate].
Qed.

Lemma combine_seq : forall (lanes : list Lane) i ln p, In (ln, p) (combine lanes (map Z.of_nat (seq i (length lanes)))) ->
  exists j, nth_error lanes j = Some ln /\ p = Z.of_nat (i + j).
Proof.
  induction lanes as [|x lanes IH]; intros i ln p H; cbn in H; [tauto|].
  destruct H as [E|H].
  - injection E as -> <-. exists 0. rewrite Nat.add_0_r. auto.
  - destruct (IH _ _ _ H) as (j & N & ->). exists (S j). split; [exact N|]. f_equal. lia.
Qed.

(** Without LanePositions all lanes are used, but the position recorded for a car on
    lane j is j + 1 ... *)
Theorem C86_default_positions_refuted fuel lanes k x : reader fuel lanes None k = Done x ->
  forall ln a p, In (ln, a, p) x -> exists j, nth_error lanes j = Some ln /\ p = Z.of_nat (S j).
Proof.
  intros H ln a p Hin. unfold uniform_reader, select_lanes in H.
  destruct (all_lanes_in _ _ _ _ H _ _ _ Hin) as [Hc _].
  destruct (combine_seq _ _ _ _ Hc) as (j & N & ->). exists j. auto.
Qed.

(** ... so that its end-of-lane goal lies on the lane right of it, and a car on the
    rightmost lane makes generation raise IndexError. *)
Theorem C86_default_goals_refuted fuel lanes k x : reader fuel lanes None k = Done x ->
  forall ln a p, In (ln, a, p) x -> exists j, nth_error lanes j = Some ln /\
    uniform_goal lanes (ln, a, p) EndOfLane true =
      match nth_error lanes (S j) with Some r => inl r | None => inr IndexError end.
Proof.
  intros H ln a p Hin. destruct (C86_default_positions_refuted _ _ _ _ H _ _ _ Hin) as (j & N & ->).
  exists j. split; [exact N|]. unfold uniform_goal, get_goal, raw_goal, idx_or, py_index.
  cbn [snd]. replace (Z.of_nat (S j) <? 0)%Z with false by (symmetry; apply Z.ltb_ge; lia). cbn match.
  replace (Z.of_nat (S j) <? 0)%Z with false by (symmetry; apply Z.ltb_ge; lia).
  rewrite Nat2Z.id. destruct (nth_error lanes (S j)); reflexivity.
Qed.
End C86.

(** Two lanes of 100 m; cars of 4 m + 1 m, gaps of 10 to 20 m, all draws 1/2. *)
Example C86_nonvacuous :
  uniform_reader 10 20 5 7 4 1 (fun _ => 1 # 2)%Q (fun _ : bool => 100)%Q (1 # 10) (1 # 2) 9 [true; false] None 0
  = Done [(true, (((1 # 10) * 100)%Q, uniform 5 7 (1 # 2)), 1%Z);
          (true, (((1 # 10) * 100 + (4 + 1 + uniform 10 20 (1 # 2)))%Q, uniform 5 7 (1 # 2)), 1%Z);
          (false, (((1 # 10) * 100)%Q, uniform 5 7 (1 # 2)), 2%Z);
          (false, (((1 # 10) * 100 + (4 + 1 + uniform 10 20 (1 # 2)))%Q, uniform 5 7 (1 # 2)), 2%Z)] /\
  (0 < 4 + 1 + 10)%Q /\ (forall k : nat, (0 <= (fun _ => 1 # 2) k <= 1)%Q).
Proof. split; [reflexivity|]. split; [reflexivity|]. intros _. split; discriminate. Qed.

(* ------------------------------------------------------------------ *)

Lemma set_at_nth : forall l i k, i < length l -> nth_error (set_at i l) k = if i =? k then Some true else nth_error l k.
Proof.
  induction l as [|b l IH]; intros [|i] [|k] H; cbn in *; try lia; auto. apply IH. lia.
Qed.
Lemma set_at_len : forall l i, length (set_at i l) = length l.
Proof. induction l as [|b l IH]; intros [|i]; cbn; auto. Qed.
Lemma nth_repeat_f n k b : nth_error (repeat false n) k = Some b -> b = false.
Proof. intros H. apply nth_error_In, repeat_spec in H. exact H. Qed.

(** No agent is controlled. *)
Theorem C87_none n : length (none_controlled n) = n /\ forall k b, nth_error (none_controlled n) k = Some b -> b = false.
Proof. split; [apply repeat_length|]. intros k b. apply nth_repeat_f. Qed.

(** Exactly the drawn agent is controlled. *)
Theorem C87_random draw n : 0 < n -> draw n < n -> exists l, random_single draw n = inl l /\ length l = n /\
  forall k, nth_error l k = Some true <-> k = draw n.
Proof.
  intros H Hd. unfold random_single. destruct n as [|n]; [lia|]. change (S n =? 0) with false. cbv iota.
  eexists. split; [reflexivity|]. rewrite set_at_len, repeat_length. split; [reflexivity|]. intros k.
  rewrite set_at_nth by (rewrite repeat_length; exact Hd). destruct (draw (S n) =? k) eqn:E.
  - apply Nat.eqb_eq in E. split; auto.
  - apply Nat.eqb_neq in E. split; [|congruence]. intros X. apply nth_repeat_f in X. discriminate.
Qed.

(** Exactly the agents with a wanted id are controlled. *)
Theorem C87_ids wanted ids : length (by_ids wanted ids) = length ids /\
  forall k i, nth_error ids k = Some i -> (nth_error (by_ids wanted ids) k = Some true <-> In i wanted).
Proof.
  unfold by_ids. rewrite map_length. split; [reflexivity|]. intros k i H. rewrite nth_error_map, H. cbn.
  split.
  - intros X. injection X as X. apply existsb_exists in X as (j & Hj & E). apply Z.eqb_eq in E. now subst.
  - intros X. f_equal. apply existsb_exists. exists i. split; [assumption|apply Z.eqb_refl].
Qed.

(** PositioningSingleAgent controls the agent whose index among ALL agents is the
    WhereOnLane of the number of agents on the lane. *)
Theorem C87_positioning lane where_ lps n l : positioning lane where_ lps n = inl l ->
  length l = n /\ let w := where_ (length (filter (at_lane lane) lps)) in
  (- Z.of_nat n <= w < Z.of_nat n)%Z /\
  forall k, nth_error l k = Some true <-> Z.of_nat k = (if (w <? 0)%Z then Z.of_nat n + w else w)%Z.
Proof.
  unfold positioning, py_set. cbv zeta. rewrite repeat_length.
  set (w := where_ _). set (j := if (w <? 0)%Z then (Z.of_nat n + w)%Z else w).
  destruct ((j <? 0)%Z || (Z.of_nat n <=? j)%Z) eqn:B; [discriminate|]. intros H. injection H as <-.
  apply orb_false_iff in B as [B1 B2]. apply Z.ltb_ge in B1. apply Z.leb_gt in B2.
  rewrite set_at_len, repeat_length. split; [reflexivity|]. split.
  - unfold j in *. destruct (w <? 0)%Z eqn:W; [apply Z.ltb_lt in W|apply Z.ltb_ge in W]; lia.
  - intros k. rewrite set_at_nth by (rewrite repeat_length; lia). destruct (Z.to_nat j =? k) eqn:E.
    + apply Nat.eqb_eq in E. split; intros _; [|reflexivity]. lia.
    + apply Nat.eqb_neq in E. split; [|intros X; exfalso; lia]. intros X. apply nth_repeat_f in X. discriminate.
Qed.

(** It does what it says if all agents stand on the lane ... *)
Theorem C87_positioning_single_lane_partial lane lps n : length lps = n -> 0 < n ->
  (forall e, In e lps -> at_lane lane e = true) ->
  exists l, positioning lane where_default lps n = inl l /\ forall k, nth_error l k = Some true <-> k = n / 2.
Proof.
  intros L Hn H. assert (F : filter (at_lane lane) lps = lps).
  { clear -H. induction lps as [|e r IH]; cbn; [reflexivity|]. rewrite (H e) by now left. f_equal. apply IH.
    intros; apply H; now right. }
  unfold positioning. rewrite F, L. unfold py_set, where_default. rewrite repeat_length.
  assert (Hd : n / 2 < n) by (apply Nat.div_lt; lia).
  replace (Z.of_nat (n / 2) <? 0)%Z with false by (symmetry; apply Z.ltb_ge; lia).
  replace (Z.of_nat n <=? Z.of_nat (n / 2))%Z with false by (symmetry; apply Z.leb_gt; lia).
  replace (Z.of_nat (n / 2) <? 0)%Z with false by (symmetry; apply Z.ltb_ge; lia). cbn [orb].
  eexists. split; [reflexivity|]. intros k. rewrite Nat2Z.id, set_at_nth by (rewrite repeat_length; lia).
  destruct (n / 2 =? k) eqn:E.
  - apply Nat.eqb_eq in E. split; auto.
  - apply Nat.eqb_neq in E. split; [|congruence]. intros X. apply nth_repeat_f in X. discriminate.
Qed.

(** ... but with two lanes it controls an agent of another lane. *)
Theorem C87_positioning_refuted : exists lps l, length lps = 4 /\
  positioning 1 where_default lps 4 = inl l /\ (exists e, In e lps /\ at_lane 1 e = true) /\
  forall k e, nth_error l k = Some true -> nth_error lps k = Some e -> at_lane 1 e = false.
Proof.
  exists [Single 0; Single 0; Single 1; Single 1]%Z, [false; true; false; false].
  repeat split.
  - exists (Single 1). cbn. auto.
  - intros [|[|[|[|k]]]] e H1 H2; cbn in *; try discriminate.
    + injection H2 as <-. reflexivity.
    + destruct k; discriminate.
Qed.

Section C87.
Context {Lane : Type}.

(** On a lane of the corridor: end of lane is that lane, a lane change is the
    neighbouring lane; a missing neighbour raises ValueError, or falls back to the
    lane itself if the goal is not enforced. *)
Theorem C87_goal_lane (lanes : list Lane) j ln t enforce : nth_error lanes j = Some ln ->
  get_goal lanes t (Z.of_nat j) enforce =
  match t with
  | EndOfLane => inl ln
  | LaneChangeRight => match nth_error lanes (S j) with
                       | Some r => inl r | None => if enforce then inr ValueError else inl ln end
  | LaneChangeLeft => match j with
                      | 0 => if enforce then inr ValueError else inl ln
                      | S i => match nth_error lanes i with Some r => inl r | None => inr IndexError end
                      end
  | Unknown => if enforce then inr NameError else inl ln
  end.
Proof.
  intros H. assert (Lj : j < length lanes) by (apply nth_error_Some; congruence).
  assert (IX : forall i, idx_or lanes (Z.of_nat i) = match nth_error lanes i with Some x => inl x | None => inr IndexError end).
  { intros i. unfold idx_or, py_index. replace (Z.of_nat i <? 0)%Z with false by (symmetry; apply Z.ltb_ge; lia).
    replace (Z.of_nat i <? 0)%Z with false by (symmetry; apply Z.ltb_ge; lia). now rewrite Nat2Z.id. }
  unfold get_goal. destruct t; cbn [raw_goal].
  - rewrite IX, H. reflexivity.
  - replace (Z.of_nat j + 1)%Z with (Z.of_nat (S j)) by lia. destruct (Z.of_nat (S j) <? Z.of_nat (length lanes))%Z eqn:B.
    + apply Z.ltb_lt in B. rewrite IX. destruct (nth_error lanes (S j)) eqn:N; [reflexivity|]. apply nth_error_None in N. lia.
    + apply Z.ltb_ge in B. rewrite (proj2 (nth_error_None lanes (S j))) by lia. rewrite IX, H. reflexivity.
  - destruct j as [|i].
    + specialize (IX 0); rewrite H in IX; cbn in IX |- *; rewrite IX. reflexivity.
    + replace (0 <=? Z.of_nat (S i) - 1)%Z with true by (symmetry; apply Z.leb_le; lia).
      replace (Z.of_nat (S i) - 1)%Z with (Z.of_nat i) by lia. rewrite IX.
      destruct (nth_error lanes i) eqn:N; [reflexivity|]. apply nth_error_None in N. lia.
  - rewrite IX, H. reflexivity.
Qed.

(** Every agent gets the goal for its own lane and flag. *)
Theorem C87_goals_per_agent (lanes : list Lane) tc to ec eo sq : forall n lps cs gs,
  fixed_goals lanes tc to ec eo sq n lps cs = inl gs ->
  length gs = n /\ forall k, k < n -> exists lp c g, nth_error lps k = Some lp /\ nth_error cs k = Some c /\
    nth_error gs k = Some g /\ agent_goal lanes tc to ec eo sq lp c = inl g.
Proof.
  induction n as [|n IH]; intros lps cs gs H; cbn [fixed_goals] in H.
  - injection H as <-. split; [reflexivity|]. intros; lia.
  - destruct lps as [|lp lps]; [discriminate|]. destruct cs as [|c cs]; [discriminate|].
    destruct (agent_goal lanes tc to ec eo sq lp c) as [g|] eqn:A; [|discriminate].
    destruct (fixed_goals lanes tc to ec eo sq n lps cs) as [r|] eqn:R; [|discriminate]. injection H as <-.
    destruct (IH _ _ _ R) as [L N]. split; [cbn; lia|]. intros [|k] Hk; cbn.
    + eauto 8.
    + apply N. lia.
Qed.

(** The controlled agents use the controlled goal type, the others the other one; only
    controlled agents get sequential goals. *)
Theorem C87_goal_kind (lanes : list Lane) tc to ec eo sq lp c g : agent_goal lanes tc to ec eo sq lp c = inl g ->
  exists p ln, (lp = Single p \/ exists r, lp = Many (p :: r)) /\
    get_goal lanes (if c then tc else to) p (if c then ec else eo) = inl ln /\
    g = match c, sq with true, Some n => Sequence ln n | _, _ => OnLane ln end.
Proof.
  unfold agent_goal, first_lane. intros H.
  assert (X : exists p, (lp = Single p \/ exists r, lp = Many (p :: r)) /\
     (if c then match get_goal lanes tc p ec with
                | inr e => inr e
                | inl l => inl (match sq with Some n => Sequence l n | None => OnLane l end)
                end
      else match get_goal lanes to p eo with inr e => inr e | inl l => inl (OnLane l) end) = inl g).
  { destruct lp as [p|[|p r]]; try discriminate; exists p; eauto. }
  destruct X as (p & Hp & X). exists p. destruct c.
  - destruct (get_goal lanes tc p ec) as [ln|]; [|discriminate]. injection X as <-. exists ln. destruct sq; auto.
  - destruct (get_goal lanes to p eo) as [ln|]; [|discriminate]. injection X as <-. exists ln. auto.
Qed.
End C87.

(** A track that is on no lane of the corridor has no goal. *)
Theorem C87_off_lane {Lane} (lanes : list Lane) tc to ec eo sq c :
  agent_goal lanes tc to ec eo sq (Many []) c = inr IndexError.
Proof. reflexivity. Qed.

Example C87_nonvacuous :
  fixed_goals [10; 11; 12] LaneChangeRight LaneChangeLeft false true (Some 4) 3
    [Single 2; Many [1; 2]; Single 1]%Z [true; false; true]
  = inl [Sequence 12 4; OnLane 10; Sequence 12 4] /\
  random_single (fun n => n - 1) 3 = inl [false; false; true] /\ by_ids [4; 7]%Z [7; 5; 4]%Z = [true; false; true].
Proof. repeat split. Qed.

Print Assumptions C86_spacing.
Print Assumptions C86_terminates.
Print Assumptions C86_diverges.
Print Assumptions C86_in_range.
Print Assumptions C86_lane_recorded.
Print Assumptions C86_default_positions_refuted.
Print Assumptions C86_default_goals_refuted.
Print Assumptions C87_none.
Print Assumptions C87_random.
Print Assumptions C87_ids.
Print Assumptions C87_positioning.
Print Assumptions C87_positioning_single_lane_partial.
Print Assumptions C87_positioning_refuted.
Print Assumptions C87_goal_lane.
Print Assumptions C87_goals_per_agent.
Print Assumptions C87_goal_kind.
Print Assumptions C87_off_lane.
