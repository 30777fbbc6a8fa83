(** C91: the UniformVehicleDistribution scenario generator. *)

From Coq Require Import List Arith Lia Bool QArith ZArith Lqa Qround.
Import ListNotations.
From Verif Require Import Model_Intersection Model_ScenGen Model_Readers Props_Readers Model_UniformGen.
Local Open Scope nat_scope.
Local Open Scope list_scope.

Section P.
Context {Line Pose Pt : Type}.
Variable rev_line : Line -> Line.
Variable pose_at : Line -> Q -> Pose.
Variable near : Line -> Pt -> Q.
Variable lanes_of : Pt -> Pt -> option (option nat * option nat).
Variable u : nat -> Q.
Variables (d_min d_max v_min v_max ev_min ev_max front rear : Q).
Hypothesis U : forall k, (0 <= u k <= 1)%Q.
Hypothesis HD : (d_min <= d_max)%Q.
Hypothesis HV : (v_min <= v_max)%Q.
Hypothesis HEV : (ev_min <= ev_max)%Q.
Notation place := (place d_min d_max v_min v_max front rear u).
Notation lines := (@lines Line).
Notation uagent := (uagent Line Pose Pt).
Notation between := (between near lanes_of).
Notation place_on := (place_on (Pt := Pt) rev_line pose_at u d_min d_max v_min v_max front rear).
Notation others := (others rev_line pose_at near lanes_of u d_min d_max v_min v_max front rear).
Notation single := (create_single rev_line pose_at near lanes_of u d_min d_max v_min v_max ev_min ev_max front rear).

Lemma number_len l g : forall ags id, length (number (Pose := Pose) (Pt := Pt) pose_at l g id ags) = length ags.
Proof. induction ags as [|[s v] r IH]; intros id; cbn; [reflexivity|]. now rewrite IH. Qed.
Lemma number_ids l g : forall ags id, map u_id (number (Pose := Pose) (Pt := Pt) pose_at l g id ags) = seq id (length ags).
Proof. induction ags as [|[s v] r IH]; intros id; cbn; [reflexivity|]. now rewrite IH. Qed.
Lemma number_nth l g : forall ags id i s v, nth_error ags i = Some (s, v) ->
  nth_error (number (Pose := Pose) (Pt := Pt) pose_at l g id ags) i = Some (mkUA (id + i) (pose_at l s) v g).
Proof.
  induction ags as [|[s0 v0] r IH]; intros id [|i] s v H; cbn in *; try discriminate.
  - injection H as -> ->. now rewrite Nat.add_0_r.
  - rewrite (IH (S id) i s v H). f_equal. f_equal. lia.
Qed.

(** A sink ahead of the source: the agents stand one after the other on the lane's center
    line, from the source on, with gaps and speeds in their ranges, before the sink and
    as many as fit; numbered one by one, all with the goal of the route; the map is kept. *)
Theorem C91_forward : forall fuel (m : lines) lane s0 s1 (g : ugoal Line Pt) k id l m' k' id', (s0 <= s1)%Q ->
  place_on fuel m lane s0 s1 g k id = Done (l, m', k', id') ->
  m' = m /\ id' = id + length l /\ map u_id l = seq id (length l) /\
  exists ss : list (Q * Q), length ss = length l /\
    (forall i a, nth_error l i = Some a -> exists s v, nth_error ss i = Some (s, v) /\ u_pose a = pose_at (m lane) s /\ u_vel a = v /\
       u_goal a = g /\ (v_min <= v <= v_max)%Q) /\
    ((s0 < s1)%Q -> exists v r, ss = (s0, v) :: r) /\ ((s1 <= s0)%Q -> ss = []) /\
    linked (fun a b => (d_min <= (fst b - rear) - (fst a + front) <= d_max)%Q) ss /\
    ((0 <= front + rear + d_min)%Q -> Forall (fun a => (s0 <= fst a < s1)%Q) ss) /\
    (forall a, last (map Some ss) None = Some a -> (s1 <= fst a + front + rear + d_max)%Q).
Proof.
  intros fuel m lane s0 s1 g k id l m' k' id' Hs H. unfold Model_UniformGen.place_on in H. cbv zeta in H.
  replace (Qle_bool s0 s1) with true in H by (symmetry; apply Qle_bool_iff; exact Hs). cbn [negb] in H.
  destruct (place fuel s0 s1 k) as [[ags k1]| |] eqn:P; try discriminate.
  pose proof (C86_spacing _ _ _ _ _ _ _ U HD HV _ _ _ _ _ _ P) as (A1 & A2 & A3 & A4 & A5 & A6 & _).
  assert (El : l = number pose_at (m lane) g id ags) by congruence. assert (Em : m' = m) by congruence. assert (Ei : id' = id + length ags) by congruence.
  subst l m' id'. rewrite number_len, number_ids. repeat split. exists ags. repeat split; auto.
  intros i a E. destruct (nth_error ags i) as [[s v]|] eqn:N.
  - rewrite (number_nth (m lane) g ags id i s v N) in E. injection E as <-. exists s, v. repeat split; cbn; auto;
      rewrite Forall_forall in A5; apply (A5 (s, v)); eapply nth_error_In; exact N.
  - apply nth_error_None in N. assert (nth_error (number (Pose := Pose) (Pt := Pt) pose_at (m lane) g id ags) i = None) by (apply nth_error_None; rewrite number_len; assumption). congruence.
Qed.

(** A sink behind the source: the center line of the lane in the scenario's map is turned
    round and stays so, and the positions from the sink's to the source's, taken on the
    old line, are used on the turned one. *)
Theorem C91_backward_refuted : forall fuel (m : lines) lane s0 s1 (g : ugoal Line Pt) k id l m' k' id', (s1 < s0)%Q ->
  place_on fuel m lane s0 s1 g k id = Done (l, m', k', id') ->
  m' lane = rev_line (m lane) /\ (forall j, j <> lane -> m' j = m j) /\ l <> [] /\
  ((0 <= front + rear + d_min)%Q -> forall a, In a l -> exists s, u_pose a = pose_at (rev_line (m lane)) s /\ (s1 <= s < s0)%Q).
Proof.
  intros fuel m lane s0 s1 g k id l m' k' id' Hs H. unfold Model_UniformGen.place_on in H. cbv zeta in H.
  replace (Qle_bool s0 s1) with false in H by (symmetry; apply not_true_iff_false; intros X; apply Qle_bool_iff in X; lra). cbn [negb] in H.
  destruct (place fuel s1 s0 k) as [[ags k1]| |] eqn:P; try discriminate.
  pose proof (C86_spacing _ _ _ _ _ _ _ U HD HV _ _ _ _ _ _ P) as (A1 & A2 & A3 & A4 & A5 & A6 & _).
  assert (El : l = number pose_at (reversed rev_line m lane lane) g id ags) by congruence. assert (Em : m' = reversed rev_line m lane) by congruence. subst l m'.
  assert (RL : reversed rev_line m lane lane = rev_line (m lane)) by (unfold reversed; now rewrite Nat.eqb_refl).
  split; [exact RL|]. split.
  { intros j N. unfold reversed. destruct (Nat.eqb_spec j lane); [contradiction|reflexivity]. }
  split. { destruct (A1 Hs) as (v & r & ->). discriminate. }
  intros NN a I. apply In_nth_error in I as [i E].
  destruct (nth_error ags i) as [[s v]|] eqn:N.
  - rewrite (number_nth _ g ags id i s v N) in E. injection E as <-. exists s. rewrite RL. split; [reflexivity|].
    specialize (A4 NN). rewrite Forall_forall in A4. apply (A4 (s, v)). eapply nth_error_In. exact N.
  - apply nth_error_None in N. assert (nth_error (number (Pose := Pose) (Pt := Pt) pose_at (reversed rev_line m lane lane) g id ags) i = None) by (apply nth_error_None; rewrite number_len; assumption). congruence.
Qed.

(** So, if positions on the turned line count from its other end, no agent stands between
    sink and source when both lie in the first half of the lane. *)
Theorem C91_backward_elsewhere_refuted : forall fuel (m : lines) lane s0 s1 (g : ugoal Line Pt) k id l m' k' id' (len : Q) (x : Pose -> Q), (s1 < s0)%Q ->
  (0 <= front + rear + d_min)%Q ->
  (forall s, (0 <= s <= len)%Q -> (x (pose_at (rev_line (m lane)) s) == len - s)%Q) ->
  (0 <= s1)%Q -> (2 * s0 <= len)%Q ->
  place_on fuel m lane s0 s1 g k id = Done (l, m', k', id') ->
  l <> [] /\ forall a, In a l -> (s0 < x (u_pose a))%Q.
Proof.
  intros fuel m lane s0 s1 g k id l m' k' id' len x Hs NN X P1 P2 H.
  destruct (C91_backward_refuted _ _ _ _ _ _ _ _ _ _ _ _ Hs H) as (_ & _ & N & A). split; [exact N|].
  intros a I. destruct (A NN a I) as (s & -> & B). rewrite X by lra. lra.
Qed.

Lemma others_cons fuel m src snk r k id : others fuel m ((src, snk) :: r) k id =
  match between m src snk with
  | inr e => Done (inr e)
  | inl (lane, s0, s1) =>
      match place_on fuel m lane s0 s1 (AtSink snk) k id with
      | Done (ags, m1, k1, id1) =>
          match others fuel m1 r k1 id1 with
          | Done (inl (ags2, m2, k2, id2)) => Done (inl (ags ++ ags2, m2, k2, id2))
          | x => x
          end
      | Crash => Crash | OutOfFuel => OutOfFuel
      end
  end.
Proof. reflexivity. Qed.

(** Whatever the routes: the agents get the next ids, one by one; every center line is
    either kept or turned round (some number of times). *)
Lemma others_facts fuel : forall routes m k id l m' k' id', others fuel m routes k id = Done (inl (l, m', k', id')) ->
  map u_id l = seq id (length l) /\ id' = id + length l /\
  exists c, forall j, m' j = Nat.iter (c j) rev_line (m j).
Proof.
  induction routes as [|[src snk] r IH]; intros m k id l m' k' id' H.
  - cbn in H. assert (l = []) by congruence. assert (m' = m) by congruence. assert (id' = id) by congruence. subst. cbn.
    repeat split; auto. exists (fun _ => 0). reflexivity.
  - rewrite others_cons in H. destruct (between m src snk) as [[[lane s0] s1]|e]; [|discriminate].
    destruct (place_on fuel m lane s0 s1 (AtSink snk) k id) as [[[[ags m1] k1] id1]| |] eqn:P; try discriminate.
    destruct (others fuel m1 r k1 id1) as [[[[[l2 m2] k2] id2]|e]| |] eqn:O; try discriminate.
    assert (l = ags ++ l2) by congruence. assert (m2 = m') by congruence. assert (id2 = id') by congruence. subst. clear H.
    destruct (IH _ _ _ _ _ _ _ O) as (B1 & B2 & c & B3).
    unfold Model_UniformGen.place_on in P. cbv zeta in P.
    assert (Q1 : map u_id ags = seq id (length ags) /\ id1 = id + length ags /\ exists c1, forall j, m1 j = Nat.iter (c1 j) rev_line (m j)).
    { destruct (negb (Qle_bool s0 s1)).
      - destruct (place fuel s1 s0 k) as [[p pk]| |]; try discriminate.
        assert (ags = number pose_at (reversed rev_line m lane lane) (AtSink snk) id p) by congruence. assert (m1 = reversed rev_line m lane) by congruence.
        assert (id1 = id + length p) by congruence. subst. rewrite number_len, number_ids. repeat split.
        exists (fun j => if Nat.eqb j lane then 1 else 0). intros j. unfold reversed. destruct (Nat.eqb j lane); reflexivity.
      - destruct (place fuel s0 s1 k) as [[p pk]| |]; try discriminate.
        assert (ags = number pose_at (m lane) (AtSink snk) id p) by congruence. assert (m1 = m) by congruence.
        assert (id1 = id + length p) by congruence. subst. rewrite number_len, number_ids. repeat split. exists (fun _ => 0). reflexivity. }
    destruct Q1 as (Q1 & Q2 & c1 & Q3). subst id1. rewrite map_app, app_length, seq_app, Q1, B1. repeat split; [lia|].
    exists (fun j => c j + c1 j). intros j. rewrite B3, Q3.
    clear. induction (c j) as [|n IH]; [reflexivity|]. exact (f_equal rev_line IH).
Qed.

(** If all sinks lie ahead of their sources, every agent stands on the center line of a
    route's lane between source and sink, with that route's goal, and the map is kept. *)
Theorem C91_all_forward : forall fuel routes (m : lines) k id l m' k' id', (0 <= front + rear + d_min)%Q ->
  (forall src snk lane s0 s1, In (src, snk) routes -> between m src snk = inl (lane, s0, s1) -> (s0 <= s1)%Q) ->
  others fuel m routes k id = Done (inl (l, m', k', id')) ->
  m' = m /\ forall a, In a l -> exists src snk lane s0 s1 s, In (src, snk) routes /\ between m src snk = inl (lane, s0, s1) /\
    u_pose a = pose_at (m lane) s /\ (s0 <= s < s1)%Q /\ (v_min <= u_vel a <= v_max)%Q /\ u_goal a = AtSink snk.
Proof.
  intros fuel. induction routes as [|[src snk] r IH]; intros m k id l m' k' id' NN F H.
  - cbn in H. assert (l = []) by congruence. assert (m' = m) by congruence. subst. split; [reflexivity|]. intros a [].
  - rewrite others_cons in H. destruct (between m src snk) as [[[lane s0] s1]|e] eqn:B; [|discriminate].
    destruct (place_on fuel m lane s0 s1 (AtSink snk) k id) as [[[[ags m1] k1] id1]| |] eqn:P; try discriminate.
    destruct (others fuel m1 r k1 id1) as [[[[[l2 m2] k2] id2]|e]| |] eqn:O; try discriminate.
    assert (l = ags ++ l2) by congruence. assert (m2 = m') by congruence. subst.
    destruct (C91_forward _ _ _ _ _ _ _ _ _ _ _ _ (F _ _ _ _ _ (or_introl eq_refl) B) P) as (-> & _ & _ & ss & _ & A1 & _ & _ & _ & A2 & _).
    destruct (IH m k1 id1 l2 m' k2 id2 NN) as [C1 C2]; [|exact O|].
    { intros s k0 ln a b I. apply (F s k0). now right. }
    split; [exact C1|]. intros a I. apply in_app_or in I as [I|I].
    + apply In_nth_error in I as [i E]. destruct (A1 i a E) as (s & v & E1 & E2 & E3 & E4 & E5).
      exists src, snk, lane, s0, s1, s. subst v. specialize (A2 NN). rewrite Forall_forall in A2.
      apply nth_error_In in E1. specialize (A2 _ E1). cbn in A2. split; [now left|]. split; [exact B|]. split; [exact E2|]. split; [exact A2|]. split; [exact E5|exact E4].
    + destruct (C2 a I) as (x1 & x2 & x3 & x4 & x5 & x6 & x7 & x8). exists x1, x2, x3, x4, x5, x6. split; [now right|exact x8].
Qed.

Lemma put_nth (l : list uagent) : forall i a j, nth_error (put l i a) j =
  match nth_error l j with Some b => Some (if Nat.eqb j i then a else b) | None => None end.
Proof. induction l as [|b l IH]; intros [|i] a [|j]; cbn; auto; destruct (nth_error l j); reflexivity. Qed.
Lemma put_ids (l : list uagent) : forall i a b, nth_error l i = Some b -> u_id a = u_id b -> map u_id (put l i a) = map u_id l.
Proof. induction l as [|c l IH]; intros [|i] a b E1 E2; cbn in *; try discriminate; [injection E1 as <-; now rewrite E2|]. f_equal. eauto. Qed.

(** With an ego route the ids of the list are new and all different, the ego agent is the
    last, and it is the one evaluated; without, it is the agent at a quarter of the
    list, which is in the list twice: one agent fewer than its length says.  It raises
    IndexError if there is none. *)
Theorem C91_ego_route : forall fuel (m : lines) routes src snk gs ge k id l ids m' k' id',
  single fuel m routes (Some (src, snk)) gs ge k id = Done (inl (l, ids, m', k', id')) ->
  map u_id l = seq id (length l) /\ NoDup (map u_id l) /\ id' = id + length l /\
  exists r a lane s0 s1 s, l = r ++ [a] /\ ids = [u_id a] /\ between m' src snk = inl (lane, s0, s1) /\
    u_pose a = pose_at (m' lane) s /\ ((s0 <= s <= s1)%Q \/ (s1 <= s <= s0)%Q) /\ (ev_min <= u_vel a <= ev_max)%Q /\
    (gs = None -> u_goal a = AtEgoGoal ge) /\
    (forall st, gs = Some st -> exists gl g0 g1, between m' st ge = inl (gl, g0, g1) /\ u_goal a = Limits (m' gl) g0 g1).
Proof.
  intros fuel m routes src snk gs ge k id l ids m' k' id' H. unfold create_single in H.
  destruct (others fuel m routes k id) as [[[[[ags m1] k1] id1]|e]| |] eqn:O; try discriminate.
  destruct (others_facts _ _ _ _ _ _ _ _ _ O) as (A1 & A2 & _). unfold ego in H.
  destruct (between m1 src snk) as [[[lane s0] s1]|e] eqn:B; [|discriminate].
  destruct (ego_goal near lanes_of m1 (Some (src, snk)) gs ge _) as [g|e] eqn:G; [|discriminate]. cbv zeta in H.
  assert (El : l = ags ++ [with_goal (mkUA id1 (pose_at (m1 lane) (uniform s0 s1 (u k1))) (uniform ev_min ev_max (u (S k1))) (AtSink snk)) g]) by congruence.
  assert (Ei : ids = [id1]) by (cbn in H; congruence). assert (Em : m1 = m') by congruence. assert (Ed : id' = S id1) by congruence. clear H. subst l m1 ids id'.
  rewrite map_app, app_length, A1. cbn [map length u_id with_goal]. subst id1.
  assert (SQ : seq id (length ags) ++ [id + length ags] = seq id (length ags + 1)) by (rewrite seq_app; reflexivity). rewrite SQ.
  split; [reflexivity|]. split; [apply seq_NoDup|]. split; [lia|]. eexists _, _, lane, s0, s1, _. split; [reflexivity|]. split; [reflexivity|].
  split; [exact B|]. split; [reflexivity|]. split.
  { unfold uniform. pose proof (U k1). destruct (Qlt_le_dec s0 s1); [left|right]; nra. }
  split; [apply uniform_between; [exact HEV|apply U|apply U]|].
  split; [intros ->; cbn in G; injection G as <-; reflexivity|]. intros st ->. cbn [ego_goal] in G.
  destruct (between m' st ge) as [[[gl g0] g1]|e] eqn:GB; [|discriminate]. injection G as <-. eauto 10.
Qed.

Theorem C91_ego_picked : forall fuel (m : lines) routes gs ge k id l ids m' k' id',
  single fuel m routes None gs ge k id = Done (inl (l, ids, m', k', id')) ->
  exists r a, l = r ++ [a] /\ nth_error r (length r / 4) = Some a /\ ids = [u_id a] /\
    map u_id r = seq id (length r) /\ ~ NoDup (map u_id l) /\ length (nodup Nat.eq_dec (map u_id l)) = length l - 1 /\
    (gs = None -> exists k1 id1, others fuel m routes k id = Done (inl (r, m', k1, id1))) /\
    (forall st, gs = Some st -> exists gl g0 g1, between m' st ge = inl (gl, g0, g1) /\ u_goal a = Limits (m' gl) g0 g1).
Proof.
  intros fuel m routes gs ge k id l ids m' k' id' H. unfold create_single in H.
  destruct (others fuel m routes k id) as [[[[[ags m1] k1] id1]|e]| |] eqn:O; try discriminate.
  destruct (others_facts _ _ _ _ _ _ _ _ _ O) as (A1 & A2 & _). unfold ego in H.
  destruct (nth_error ags (length ags / 4)) as [a|] eqn:N; [|discriminate].
  destruct (ego_goal near lanes_of m1 None gs ge _) as [g|e] eqn:G; [|discriminate]. cbv zeta in H.
  assert (Em : m1 = m') by congruence. subst m1.
  assert (El : l = put ags (length ags / 4) (with_goal a g) ++ [with_goal a g]) by congruence.
  assert (Ei : ids = [u_id a]) by (cbn in H; congruence). clear H. subst l ids.
  assert (PI : map u_id (put ags (length ags / 4) (with_goal a g)) = map u_id ags) by (eapply put_ids; [exact N|reflexivity]).
  assert (PL : length (put ags (length ags / 4) (with_goal a g)) = length ags) by (rewrite <- (map_length u_id), PI; apply map_length).
  exists (put ags (length ags / 4) (with_goal a g)), (with_goal a g). split; [reflexivity|]. rewrite PL. split.
  { rewrite put_nth, N, Nat.eqb_refl. reflexivity. }
  split; [reflexivity|]. rewrite PI. split; [exact A1|]. rewrite map_app, PI. cbn [map].
  assert (I : In (u_id (with_goal a g)) (map u_id ags)) by (apply in_map_iff; exists a; split; [reflexivity|]; eapply nth_error_In; exact N).
  split.
  { intros D. apply NoDup_remove_2 in D. apply D. rewrite app_nil_r. exact I. }
  rewrite app_length, PL. cbn [length]. replace (length ags + 1 - 1) with (length ags) by lia.
  assert (ND : NoDup (map u_id ags)) by (rewrite A1; apply seq_NoDup).
  assert (NL : forall (L : list nat) x, NoDup L -> In x L -> length (nodup Nat.eq_dec (L ++ [x])) = length L).
  { clear. induction L as [|y L IH]; intros x ND I; [destruct I|]. inversion ND; subst. cbn [app nodup length].
    destruct (in_dec Nat.eq_dec y (L ++ [x])) as [J|J].
    - apply in_app_or in J as [J|[J|[]]]; [contradiction|]. subst y.
      assert (K : forall (M : list nat) z, NoDup M -> ~ In z M -> length (nodup Nat.eq_dec (M ++ [z])) = S (length M)).
      { clear. intros M z ND NI. rewrite nodup_fixed_point; [rewrite app_length; cbn; lia|].
        apply NoDup_rev in ND. rewrite <- (rev_involutive (M ++ [z])). apply NoDup_rev. rewrite rev_app_distr. cbn. constructor; [rewrite <- in_rev; exact NI|exact ND]. }
      apply K; assumption.
    - cbn. f_equal. apply IH; [assumption|]. destruct I as [->|I]; [|exact I]. exfalso. apply J. apply in_or_app. right. now left. }
  split; [rewrite NL; [apply map_length|exact ND|exact I]|]. split.
  - intros ->. cbn in G. injection G as <-. exists k1, id1.
    replace (put ags (length ags / 4) (with_goal a (u_goal a))) with ags; [reflexivity|].
    replace (with_goal a (u_goal a)) with a by (destruct a; reflexivity). clear - N. revert N. generalize (length ags / 4).
    induction ags as [|b ags IH]; intros [|i] N; cbn in *; try discriminate; [congruence|]. f_equal. apply IH; assumption.
  - intros st ->. cbn [ego_goal] in G. destruct (between m' st ge) as [[[gl g0] g1]|e] eqn:GB; [|discriminate]. injection G as <-. eauto 10.
Qed.

Theorem C91_ego_none_refuted : forall fuel (m : lines) routes gs ge k id m' k' id',
  others fuel m routes k id = Done (inl ([], m', k', id')) -> single fuel m routes None gs ge k id = Done (inr IndexError).
Proof. intros fuel m routes gs ge k id m' k' id' H. unfold create_single. rewrite H. reflexivity. Qed.

(** A source and a sink on different lanes, or off the lanes: no scenario, an exception. *)
Theorem C91_lanes_differ : forall fuel (m : lines) pre src snk post er gs ge k id a b, lanes_of src snk = Some (a, b) ->
  (a = None \/ b = None \/ a <> b) ->
  forall r, single fuel m (pre ++ (src, snk) :: post) er gs ge k id = Done r -> exists e, r = inr e.
Proof.
  intros fuel m pre src snk post er gs ge k id a b L N r H. unfold create_single in H.
  assert (X : forall pre m k id q, others fuel m (pre ++ (src, snk) :: post) k id = Done q -> exists e, q = inr e).
  { clear - L N. induction pre as [|[s0 t0] pre IH]; intros m k id q H.
    - cbn [app] in H. rewrite others_cons in H. unfold Model_UniformGen.between in H. rewrite L in H.
      destruct a as [a|], b as [b|]; try (injection H as <-; eauto). destruct (Nat.eqb_spec a b) as [->|Z]; [|injection H as <-; eauto].
      destruct N as [N|[N|N]]; congruence.
    - cbn [app] in H. rewrite others_cons in H. destruct (between m s0 t0) as [[[lane x0] x1]|e]; [|injection H as <-; eauto].
      destruct (place_on fuel m lane x0 x1 (AtSink t0) k id) as [[[[ags m1] k1] id1]| |]; try discriminate.
      destruct (others fuel m1 (pre ++ (src, snk) :: post) k1 id1) as [[[[[l2 m2] k2] id2]|e]| |] eqn:O; try discriminate.
      + destruct (IH _ _ _ _ O) as [e E]. discriminate.
      + injection H as <-. eauto. }
  destruct (others fuel m (pre ++ (src, snk) :: post) k id) as [q| |] eqn:O; try discriminate.
  destruct (X _ _ _ _ _ O) as [e ->]. injection H as <-. eauto.
Qed.

(** Placing ends for every map and all routes if the smallest step is positive: enough
    fuel gives one and the same result. *)
Theorem C91_ends : forall routes (m : lines) er gs ge k id, (0 < front + rear + d_min)%Q ->
  exists r f0, forall fuel, f0 <= fuel -> single fuel m routes er gs ge k id = Done r.
Proof.
  intros routes m er gs ge k id HP.
  assert (Arch : forall x : Q, exists n : nat, (x <= inject_Z (Z.of_nat n) * (front + rear + d_min))%Q).
  { intros x. exists (Z.to_nat (Qceiling (x / (front + rear + d_min)))).
    set (c := (front + rear + d_min)%Q) in *. pose proof (Qle_ceiling (x / c)) as C.
    assert (E : (x == x / c * c)%Q) by (field; lra).
    destruct (Qlt_le_dec x 0) as [N|N].
    - assert (0 <= inject_Z (Z.of_nat (Z.to_nat (Qceiling (x / c)))))%Q by (change 0%Q with (inject_Z 0); rewrite <- Zle_Qle; lia). nra.
    - assert (G : (0 <= Qceiling (x / c))%Z).
      { rewrite Zle_Qle. change (inject_Z 0) with 0%Q. apply Qle_trans with (x / c)%Q; [|exact C]. apply Qle_shift_div_l; [exact HP|]. lra. }
      rewrite Z2Nat.id by exact G. rewrite E at 1. apply Qmult_le_compat_r; [exact C|lra]. }
  assert (PL : forall lo hi k, exists x f0, forall fuel, f0 <= fuel -> place fuel lo hi k = Done x).
  { intros lo hi k0. destruct (Arch (hi - lo)%Q) as [n Hn].
    destruct (C86_terminates d_min d_max v_min v_max front rear u U HD lo hi k0 n HP Hn) as (l & k' & A & _). exists (l, k'), (S n). intros fuel Hf. apply A. lia. }
  assert (O : forall routes m k id, exists r f0, forall fuel, f0 <= fuel -> others fuel m routes k id = Done r).
  { clear - PL. induction routes as [|[src snk] r IH]; intros m k id.
    - eexists _, 0. intros fuel _. reflexivity.
    - destruct (between m src snk) as [[[lane s0] s1]|e] eqn:B; [|eexists _, 0; intros fuel _; rewrite others_cons, B; reflexivity].
      destruct (PL (if negb (Qle_bool s0 s1) then s1 else s0) (if negb (Qle_bool s0 s1) then s0 else s1) k) as ([ags k1] & f1 & P).
      set (m1 := if negb (Qle_bool s0 s1) then reversed rev_line m lane else m).
      destruct (IH m1 k1 (id + length ags)) as (q & f2 & Q).
      exists (match q with inl (ags2, m2, k2, id2) => inl (number pose_at (m1 lane) (AtSink snk) id ags ++ ags2, m2, k2, id2) | inr e => inr e end), (f1 + f2).
      intros fuel Hf. rewrite others_cons, B. unfold Model_UniformGen.place_on. cbv zeta. fold m1.
      destruct (negb (Qle_bool s0 s1)); rewrite P by lia; rewrite Q by lia; destruct q as [[[[? ?] ?] ?]|]; reflexivity. }
  destruct (O routes m k id) as (r & f0 & H).
  destruct r as [[[[l m1] k1] id1]|e].
  - destruct (ego pose_at near lanes_of u ev_min ev_max m1 l er k1 id1) as [[[[a p] k2] id2]|e] eqn:E.
    + destruct (ego_goal near lanes_of m1 er gs ge (u_goal a)) as [g|e] eqn:G.
      * eexists _, f0. intros fuel Hf. unfold create_single. rewrite H, E, G by exact Hf. reflexivity.
      * eexists _, f0. intros fuel Hf. unfold create_single. rewrite H, E, G by exact Hf. reflexivity.
    + eexists _, f0. intros fuel Hf. unfold create_single. rewrite H, E by exact Hf. reflexivity.
  - eexists _, f0. intros fuel Hf. unfold create_single. rewrite H by exact Hf. reflexivity.
Qed.

(** Every scenario is made from the map as read, later draws and new ids. *)
Theorem C91_all_scenarios : forall n fuel (m : lines) routes er gs ge k id r,
  create_all rev_line pose_at near lanes_of u d_min d_max v_min v_max ev_min ev_max front rear fuel n m routes er gs ge k id = Done (inl r) ->
  length r = n /\ forall l ids m', In (l, ids, m') r -> exists k0 id0 k1 id1, id <= id0 /\ single fuel m routes er gs ge k0 id0 = Done (inl (l, ids, m', k1, id1)).
Proof.
  assert (Mono : forall fuel (m : lines) routes er gs ge k id l ids m' k' id', single fuel m routes er gs ge k id = Done (inl (l, ids, m', k', id')) -> id <= id').
  { intros fuel m routes er gs ge k id l ids m' k' id' H. destruct er as [[src snk]|].
    - destruct (C91_ego_route _ _ _ _ _ _ _ _ _ _ _ _ _ _ H) as (_ & _ & -> & _). lia.
    - unfold create_single in H. destruct (others fuel m routes k id) as [[[[[ags m1] k1] id1]|e]| |] eqn:O; try discriminate.
      destruct (others_facts _ _ _ _ _ _ _ _ _ O) as (_ & A2 & _). unfold ego in H. destruct (nth_error ags (length ags / 4)); [|discriminate].
      destruct (ego_goal near lanes_of m1 None gs ge _); [|discriminate]. cbv zeta in H. assert (id' = id1) by congruence. lia. }
  induction n as [|n IH]; intros fuel m routes er gs ge k id r H; cbn [create_all] in H.
  - assert (r = []) by congruence. subst. split; [reflexivity|]. intros l ids m' [].
  - destruct (single fuel m routes er gs ge k id) as [[[[[[l0 ids0] m0] k0] id0]|e]| |] eqn:E; try discriminate.
    destruct (create_all _ _ _ _ _ _ _ _ _ _ _ _ _ fuel n m routes er gs ge k0 id0) as [[r0|e]| |] eqn:F; try discriminate.
    assert (r = (l0, ids0, m0) :: r0) by congruence. subst. destruct (IH _ _ _ _ _ _ _ _ _ F) as [A1 A2]. split; [cbn; lia|].
    intros l ids m' [Q|I].
    + assert (l0 = l) by congruence. assert (ids0 = ids) by congruence. assert (m0 = m') by congruence. subst. exists k, id, k0, id0. split; [lia|exact E].
    + destruct (A2 _ _ _ I) as (x1 & x2 & x3 & x4 & B1 & B2). exists x1, x2, x3, x4. split; [|exact B2]. apply Mono in E. lia.
Qed.
End P.
Print Assumptions C91_forward. Print Assumptions C91_backward_refuted. Print Assumptions C91_backward_elsewhere_refuted.
Print Assumptions C91_all_forward. Print Assumptions C91_ego_route. Print Assumptions C91_ego_picked. Print Assumptions C91_ego_none_refuted.
Print Assumptions C91_lanes_differ. Print Assumptions C91_ends. Print Assumptions C91_all_scenarios.

(* ---- the hypotheses are met: a straight lane 0 of length 100 and a lane 1 ---- *)
Definition sline : Type := Q * bool.                  (* length, turned round *)
Definition srev (l : sline) : sline := (fst l, negb (snd l)).
Definition spose (l : sline) (s : Q) : Q * bool := (if snd l then fst l - s else s, snd l)%Q.
Definition snear (l : sline) (x : Q) : Q := (if snd l then fst l - x else x)%Q.
Definition slanes (a b : Q) : option (option nat * option nat) :=
  Some (Some 0, if Qle_bool b 100 then Some 0 else Some 1).
Definition smap (i : nat) : sline := (100, false)%Q.
Definition mid (k : nat) : Q := (1#2)%Q.
Notation ssingle := (create_single srev spose snear slanes mid 10 20 5 7 8 9 2 3).
Definition spots (l : list (uagent sline (Q * bool) Q)) := map (fun a => (u_id a, Qred (fst (u_pose a)), snd (u_pose a), Qred (u_vel a))) l.
Example C91_nonvacuous :
  (forall k, (0 <= mid k <= 1)%Q) /\ (* forward with ego route *)
  (exists l m' k id, ssingle 10 smap [(10, 60)%Q] (Some (20, 30)%Q) None 90%Q 0 5 = Done (inl (l, [8], m', k, id)) /\ spots l = [(5%nat, 10, false, 6); (6%nat, 30, false, 6); (7%nat, 50, false, 6); (8%nat, 25, false, 17#2)]%Q /\ m' 0 = smap 0 /\ map u_goal l = [AtSink 60; AtSink 60; AtSink 60; AtEgoGoal 90]%Q) /\ (* backward: from 45 to 10, the agents stand between 55 and 90, the lane is turned *)
  (exists l m' k id, ssingle 10 smap [(45, 10)%Q] None None 90%Q 0 0 = Done (inl (l, [0], m', k, id)) /\ spots l = [(0%nat, 90, true, 6); (1%nat, 70, true, 6); (0%nat, 90, true, 6)]%Q /\ m' 0 = (100, true)%Q) /\ (forall s, (0 <= s <= 100)%Q -> (fst (spose (srev (smap 0)) s) == 100 - s)%Q) /\ ssingle 10 smap [(45, 45)%Q] None None 90%Q 0 0 = Done (inr IndexError) /\ ssingle 10 smap [(10, 60); (45, 120)]%Q None None 90%Q 0 0 = Done (inr TypeError).
Proof.
  split; [intros k; split; discriminate|].
  split; [do 4 eexists; split; [vm_compute; reflexivity|repeat split; reflexivity]|].
  split; [do 4 eexists; split; [vm_compute; reflexivity|repeat split; reflexivity]|].
  split; [intros s _; reflexivity|]. split; vm_compute; reflexivity.
Qed.
