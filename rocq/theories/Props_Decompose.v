(** C89: one scenario per recorded vehicle. *)

From Coq Require Import String List Arith Lia Bool QArith ZArith FinFun.
Import ListNotations.
From Verif Require Import Model_Intersection Model_ScenGen Model_Dataset Spec_Dataset Proof_Dataset Proof_Window.
Local Open Scope Z_scope.
Local Open Scope list_scope.

(** Times are rounded to the nearest recorded sample, halfway to an even one; samples stay. *)
Theorem C89_rounding z : (exists q, round100 z = 100 * q) /\ -50 <= round100 z - z <= 50 /\
  ((exists q, z = 100 * q) -> round100 z = z) /\
  (Z.abs (round100 z - z) = 50 -> exists q, round100 z = 200 * q).
Proof.
  unfold round100. cbv zeta. pose proof (Z.div_mod z 100 ltac:(lia)) as E. pose proof (Z.mod_pos_bound z 100 ltac:(lia)) as B.
  split; [|split; [|split]].
  - destruct (z mod 100 <? 50); [eauto|]. destruct (50 <? z mod 100); [eauto|]. destruct (Z.even (z / 100)); eauto.
  - destruct (z mod 100 <? 50) eqn:A; [apply Z.ltb_lt in A; lia|]. apply Z.ltb_ge in A.
    destruct (50 <? z mod 100) eqn:A2; [apply Z.ltb_lt in A2; lia|]. apply Z.ltb_ge in A2. destruct (Z.even (z / 100)); lia.
  - intros (q & ->). replace (100 * q) with (q * 100) by lia. rewrite Z.mod_mul, Z.div_mul by lia. change (0 <? 50) with true. cbv iota. lia.
  - destruct (z mod 100 <? 50) eqn:A; [apply Z.ltb_lt in A; lia|]. apply Z.ltb_ge in A.
    destruct (50 <? z mod 100) eqn:A2; [apply Z.ltb_lt in A2; lia|]. intros _.
    destruct (Z.even (z / 100)) eqn:V.
    + apply Z.even_spec in V as [q V]. exists q. lia.
    + assert (O : Z.odd (z / 100) = true) by (rewrite <- Z.negb_even, V; reflexivity). apply Z.odd_spec in O as [q O]. exists (q + 1). lia.
Qed.

Section C89.
Context {MS : Type}.
Variables (on_road : MS -> bool) (offset : Z) (max_length : Q).
Notation infos := (track_infos on_road offset max_length).
Notation decompose := (decompose on_road offset max_length).
Notation create := (create_full on_road offset max_length).

(** The track is a car of at most the maximum length that is on the road at some
    recorded time >= 0, for the first time at [t0]. *)
Definition on_map_from (tr : track MS) (t0 : Z) : Prop :=
  t_type tr = "car"%string /\ (t_length tr <= max_length)%Q /\
  exists e ms pre post, (exists l x, t_states tr = l ++ [(e, x)]) /\
    t_states tr = pre ++ (t0, ms) :: post /\ 0 <= t0 <= e /\ on_road ms = true /\
    forall t x, In (t, x) pre -> 0 <= t <= e -> on_road x = false.

Lemma find_split {A} (f : A -> bool) : forall l x, find f l = Some x <->
  exists pre post, l = pre ++ x :: post /\ f x = true /\ forall y, In y pre -> f y = false.
Proof.
  induction l as [|a l IH]; intros x; cbn.
  - split; [discriminate|]. intros (pre & post & E & _). destruct pre; discriminate.
  - destruct (f a) eqn:F; split.
    + intros E. injection E as <-. exists [], l. repeat split; auto. intros y [].
    + intros (pre & post & E & Fx & N). destruct pre as [|b pre]; cbn in E; injection E as <- E; [reflexivity|].
      exfalso. assert (X : f a = false) by (apply N; now left). congruence.
    + intros E. apply IH in E as (pre & post & -> & Fx & N). exists (a :: pre), post. repeat split; auto.
      intros y [<-|Hy]; auto.
    + intros (pre & post & E & Fx & N). destruct pre as [|b pre]; cbn in E; injection E as <- E; [congruence|].
      apply IH. exists pre, post. repeat split; auto. intros y Hy. apply N. now right.
Qed.

Lemma first_ts_ok (tr : track MS) t : first_ts on_road offset tr = Some t <->
  exists e ms pre post t0, (exists l x, t_states tr = l ++ [(e, x)]) /\
    t_states tr = pre ++ (t0, ms) :: post /\ 0 <= t0 <= e /\ on_road ms = true /\ t = t0 + offset /\
    forall t x, In (t, x) pre -> 0 <= t <= e -> on_road x = false.
Proof.
  unfold first_ts. split.
  - destruct (rev (t_states tr)) as [|[e x] r] eqn:Rv; [discriminate|].
    destruct (find _ _) as [[t1 ms1]|] eqn:Fd; [|discriminate]. intros H. injection H as <-.
    unfold trajectory in Fd.
    assert (G : exists pre post t0 ms, t_states tr = pre ++ (t0, ms) :: post /\ 0 <= t0 <= e /\ on_road ms = true /\ t1 = t0 - 0 /\
      forall t x, In (t, x) pre -> 0 <= t <= e -> on_road x = false).
    { clear Rv. induction (t_states tr) as [|[a b] l IH]; cbn in Fd; [discriminate|].
      destruct ((0 <=? a) && (a <=? e)) eqn:B.
      - cbn in Fd. destruct (on_road b) eqn:Ob.
        + injection Fd as <- <-. apply andb_true_iff in B as [B1 B2]. apply Z.leb_le in B1, B2.
          exists [], l, a, b. repeat split; auto. intros ? ? [].
        + destruct (IH Fd) as (pre & post & t0 & ms & -> & A1 & A2 & A3 & A4). exists ((a, b) :: pre), post, t0, ms.
          repeat split; auto; try apply A1. intros t x0 [E|Hin] Ht; [injection E as <- <-; exact Ob|eauto].
      - destruct (IH Fd) as (pre & post & t0 & ms & -> & A1 & A2 & A3 & A4). exists ((a, b) :: pre), post, t0, ms.
        repeat split; auto; try apply A1. intros t x0 [E|Hin] Ht; [injection E as <- <-|eauto].
        exfalso. rewrite andb_false_iff, !Z.leb_gt in B. lia. }
    destruct G as (pre & post & t0 & ms & A0 & A1 & A2 & -> & A4). exists e, ms, pre, post, t0.
    split; [|split; [assumption|split; [assumption|split; [assumption|split; [lia|assumption]]]]].
    exists (rev r), x. rewrite <- (rev_involutive (t_states tr)), Rv. reflexivity.
  - intros (e & ms & pre & post & t0 & (l & x & E) & E2 & H1 & H2 & -> & H3).
    rewrite E, rev_unit.
    assert (F : find (fun x => on_road (snd x)) (trajectory tr 0 e) = Some (t0 - 0, ms)).
    { unfold trajectory. rewrite E2. clear E E2. induction pre as [|[a b] pre IH]; cbn.
      - replace ((0 <=? t0) && (t0 <=? e)) with true; [cbn; rewrite H2; reflexivity|].
        symmetry. apply andb_true_iff. split; apply Z.leb_le; lia.
      - destruct ((0 <=? a) && (a <=? e)) eqn:B.
        + cbn. apply andb_true_iff in B as [B1 B2]. apply Z.leb_le in B1, B2. rewrite (H3 a b) by (auto; now left).
          apply IH. intros; eapply H3; eauto. now right.
        + apply IH. intros; eapply H3; eauto. now right. }
    rewrite F. f_equal. lia.
Qed.

Lemma track_info_ok (tr : track MS) i : In i (track_info on_road offset max_length tr) <->
  exists t0, on_map_from tr t0 /\ i = mkInfo (t_id tr) (round100 (t0 + offset)) (round100 (t_last tr)).
Proof.
  unfold track_info, on_map_from, make_info. split.
  - destruct (first_ts on_road offset tr) as [t|] eqn:F; [|intros []].
    destruct (String.eqb (t_type tr) "car") eqn:T; cbn [negb]; [|intros []].
    destruct (Qle_bool (t_length tr) max_length) eqn:Q; cbn [negb]; [|intros []].
    intros [<-|[]]. apply first_ts_ok in F as (e & ms & pre & post & t0 & A1 & A2 & A3 & A4 & -> & A6).
    exists t0. split; [|reflexivity]. apply String.eqb_eq in T. apply Qle_bool_iff in Q.
    split; [assumption|]. split; [assumption|]. exists e, ms, pre, post. auto.
  - intros (t0 & (T & Q & e & ms & pre & post & A1 & A2 & A3 & A4 & A6) & ->).
    assert (F : first_ts on_road offset tr = Some (t0 + offset)) by (apply first_ts_ok; exists e, ms, pre, post, t0; auto 7).
    rewrite F, T, String.eqb_refl. apply Qle_bool_iff in Q. rewrite Q. cbn. now left.
Qed.

(** Exactly the cars that come on the road are considered, from the first time they are
    on it (plus the offset) to the end of their track. *)
Theorem C89_usable (d : list (track MS)) i : In i (infos d) <->
  exists tr t0, In tr d /\ on_map_from tr t0 /\
    i = mkInfo (t_id tr) (round100 (t0 + offset)) (round100 (t_last tr)).
Proof.
  unfold track_infos. rewrite in_flat_map. split.
  - intros (tr & T & H). apply track_info_ok in H as (t0 & H & ->). eauto.
  - intros (tr & t0 & T & H & ->). exists tr. split; [assumption|]. apply track_info_ok. eauto.
Qed.

Lemma infos_ids (d : list (track MS)) : NoDup (map t_id d) -> NoDup (map i_id (infos d)).
Proof.
  intros N. unfold track_infos. induction d as [|tr d IH]; cbn; [constructor|].
  inversion N as [|? ? N1 N2]; subst. rewrite map_app.
  assert (Y : map i_id (track_info on_road offset max_length tr) = [] \/ map i_id (track_info on_road offset max_length tr) = [t_id tr]).
  { unfold track_info. destruct (first_ts _ _ tr); [|now left]. destruct (negb _); [now left|]. destruct (negb _); [now left|now right]. }
  destruct Y as [->| ->]; cbn; [auto|]. constructor; [|auto].
  intros H. apply N1. apply in_map_iff in H as (i & E & H). apply in_flat_map in H as (tr' & T & H).
  apply track_info_ok in H as (t0 & _ & ->). cbn in E. rewrite <- E. now apply in_map.
Qed.

Lemma r100_idem z : round100 (round100 z) = round100 z.
Proof. apply C89_rounding. apply (proj1 (C89_rounding z)). Qed.

Lemma others_in (l : list info) e o : In o (others_of l e) <-> In o l /\ i_id o <> i_id e /\ together o e.
Proof.
  unfold others_of, together. rewrite filter_In, !andb_true_iff, !negb_true_iff, Z.eqb_neq, !Z.leb_gt. intuition lia.
Qed.

Lemma infos_rounded (d : list (track MS)) i : In i (infos d) -> round100 (i_start i) = i_start i /\ round100 (i_end i) = i_end i.
Proof. intros H. apply C89_usable in H as (tr & t0 & _ & _ & ->). cbn. split; apply r100_idem. Qed.

Lemma decompose_with_ok all : (forall i, In i all -> round100 (i_start i) = i_start i /\ round100 (i_end i) = i_end i) ->
  forall l, incl l all -> exists ss, decompose_with all l = Some ss /\
    map s_ego ss = l /\ Forall (fun s => s_start s = i_start (s_ego s) /\ s_end s = i_end (s_ego s) /\ sane s = true /\
      s_others s = others_of all (s_ego s)) ss.
Proof.
  intros HR. induction l as [|e l IH]; intros HI; cbn [decompose_with]; [eexists; repeat split; auto|].
  destruct IH as (ss & E & M & F); [intros x Hx; apply HI; now right|].
  destruct (HR e) as [R1 R2]; [apply HI; now left|].
  unfold make_sinfo. cbv zeta. rewrite R1, R2.
  replace (existsb _ (others_of all e)) with false.
  - rewrite E. eexists. split; [reflexivity|]. cbn. split; [now rewrite M|]. constructor; [|exact F]. cbn.
    repeat split; auto. unfold sane. cbn. rewrite !Z.ltb_irrefl. reflexivity.
  - symmetry. apply Bool.not_true_is_false. intros X. apply existsb_exists in X as (o & O1 & O2).
    apply Z.ltb_lt in O2. apply others_in in O1 as (_ & _ & O3). unfold together in O3. lia.
Qed.

(** Decomposing never fails and gives one scenario per considered vehicle, in file
    order, from its first to its last time, with exactly the other considered vehicles
    that are present at the same time for more than an instant. *)
Theorem C89_scenarios (d : list (track MS)) : exists ss, decompose d = Some ss /\ map s_ego ss = infos d /\
  forall s, In s ss -> s_start s = i_start (s_ego s) /\ s_end s = i_end (s_ego s) /\
    (forall o, In o (s_others s) <-> In o (infos d) /\ i_id o <> i_id (s_ego s) /\ together o (s_ego s)).
Proof.
  destruct (decompose_with_ok (infos d) (fun i => infos_rounded d i) (infos d) (incl_refl _)) as (ss & E & M & F).
  exists ss. split; [exact E|]. split; [exact M|]. intros s Hs. rewrite Forall_forall in F. destruct (F s Hs) as (A1 & A2 & _ & A4).
  split; [assumption|]. split; [assumption|]. intros o. rewrite A4. apply others_in.
Qed.

(** The agent made from the track [tr] of [d] with considered span [i]. *)
Definition agent_of (d : list (track MS)) (s : sinfo) (model : bool) (i : info) (ego : bool) (a : dagent) : Prop :=
  d_id a = i_id i /\ (exists tr, In tr d /\ t_id tr = i_id i /\
    init_state tr (if ego then s_start s else Z.max (i_start i) (s_start s)) = Some (d_init a) /\
    (match d_traj a with
     | None => model = true /\ ego = false
     | Some tj => (model = false \/ ego = true) /\
         tj = map (fun x => (fst x - s_start s, snd x))
                  (filter (fun x => (s_start s <=? fst x) && (fst x <=? s_end s)) (t_states tr))
     end)) /\
  d_valid a = (if ego then 0 else i_start i - s_start s).

Lemma make_agent_ok d s model i ego a : make_agent d s model i ego = Some a -> agent_of d s model i ego a.
Proof.
  unfold make_agent. destruct (find _ d) as [tr|] eqn:F; [|discriminate]. cbv zeta.
  destruct (init_state tr _) as [x|] eqn:I; [|discriminate]. intros H. injection H as <-.
  apply find_some in F as [F1 F2]. apply Z.eqb_eq in F2. split; [reflexivity|]. cbn. split; [|reflexivity].
  exists tr. repeat split; auto. destruct model, ego; cbn; auto.
Qed.

Lemma make_agents_ok d s model : forall l x, make_agents d s model l = Some x ->
  exists os e, x = os ++ [e] /\ Forall2 (fun i a => agent_of d s model i false a) l os /\ agent_of d s model (s_ego s) true e.
Proof.
  induction l as [|o l IH]; intros x H; cbn in H.
  - destruct (make_agent d s model (s_ego s) true) eqn:M; [|discriminate]. injection H as <-.
    exists [], d0. repeat split; auto; apply (make_agent_ok _ _ _ _ _ _ M).
  - destruct (make_agent d s model o false) eqn:M; [|discriminate]. destruct (make_agents d s model l); [|discriminate].
    injection H as <-. destruct (IH _ eq_refl) as (os & e & -> & F & E). exists (d0 :: os), e.
    split; [reflexivity|]. split; [|exact E]. constructor; [|exact F]. apply (make_agent_ok _ _ _ _ _ _ M).
Qed.

(** Every scenario holds one agent per other vehicle and, last, the ego, which alone is
    evaluated; a vehicle starts at its recorded state at the later of its own and the
    scenario's start and replays its recorded states within the scenario's time,
    relative to its start; with a behavior model given only the ego replays. *)
Theorem C89_agents (d : list (track MS)) model excluded num i l x :
  from_file d model excluded num i l = Some x ->
  forall sc, In sc x -> In (ds_info sc) l /\ ds_eval sc = [i_id (s_ego (ds_info sc))] /\
    exists os e, ds_agents sc = os ++ [e] /\
      Forall2 (fun i a => agent_of d (ds_info sc) model i false a) (s_others (ds_info sc)) os /\
      agent_of d (ds_info sc) model (s_ego (ds_info sc)) true e.
Proof.
  revert i x. induction l as [|s l IH]; intros i x H sc Hin; cbn in H.
  - injection H as <-. destruct Hin.
  - destruct (_ && _); [|injection H as <-; destruct Hin].
    destruct (single d model s) as [sc0|] eqn:S0; [|discriminate].
    destruct (from_file d model excluded num (Datatypes.S i) l) as [y|] eqn:Fy; [|discriminate]. injection H as <-.
    destruct Hin as [<-|Hin].
    + unfold single in S0. destruct (sane s); [|discriminate]. destruct (make_agents d s model (s_others s)) as [ags|] eqn:M; [|discriminate].
      injection S0 as <-. cbn. split; [now left|]. split; [reflexivity|]. exact (make_agents_ok _ _ _ _ _ M).
    + destruct (IH _ _ Fy _ Hin) as (A & B). split; [now right|exact B].
Qed.

(** Recorded without gaps and starting at or after 0, and the offset does not go beyond
    the end of a track. *)
Definition well_recorded (d : list (track MS)) : Prop :=
  NoDup (map t_id d) /\ (forall tr, In tr d -> contiguous tr) /\
  (forall tr t0, In tr d -> on_map_from tr t0 -> t0 + offset <= t_last tr).

Lemma well_span d i : 0 <= offset -> (exists q, offset = 100 * q) -> well_recorded d -> In i (infos d) ->
  exists tr, In tr d /\ t_id tr = i_id i /\ contiguous tr /\ t_first tr <= i_start i <= i_end i /\ i_end i = t_last tr /\
    (exists q, i_start i = 100 * q).
Proof.
  intros O0 (q & Oq) (N & C & Sp) H. apply C89_usable in H as (tr & t0 & T & M & ->). cbn [i_id i_start i_end].
  pose proof (C tr T) as Ct. pose proof Ct as ((a & b & F1 & F2 & AB) & Cc & _).
  assert (T0 : (exists q, t0 = 100 * q) /\ t_first tr <= t0 <= t_last tr).
  { destruct M as (_ & _ & e & ms & pre & post & _ & E & _). apply Cc. exists ms. rewrite E. apply in_or_app. right. now left. }
  destruct T0 as ((q0 & Eq) & Bt). specialize (Sp tr t0 T M).
  assert (R1 : round100 (t0 + offset) = t0 + offset) by (apply C89_rounding; exists (q0 + q); lia).
  assert (R2 : round100 (t_last tr) = t_last tr) by (apply C89_rounding; eauto).
  rewrite R1, R2. exists tr. split; [assumption|]. split; [reflexivity|]. split; [exact Ct|]. split; [lia|]. split; [reflexivity|]. exists (q0 + q). lia.
Qed.

Lemma find_id (d : list (track MS)) tr : NoDup (map t_id d) -> In tr d -> find (fun x => t_id x =? t_id tr) d = Some tr.
Proof.
  induction d as [|y d IH]; intros N H; [destruct H|]. cbn in *. inversion N as [|? ? N1 N2]; subst.
  destruct H as [->|H]; [now rewrite Z.eqb_refl|]. destruct (t_id y =? t_id tr) eqn:E; [|auto].
  apply Z.eqb_eq in E. exfalso. apply N1. rewrite E. now apply in_map.
Qed.

Lemma single_some d s model : 0 <= offset -> (exists q, offset = 100 * q) -> well_recorded d ->
  s_start s = i_start (s_ego s) -> s_end s = i_end (s_ego s) -> In (s_ego s) (infos d) ->
  (forall o, In o (s_others s) -> In o (infos d) /\ together o (s_ego s)) ->
  exists sc, single d model s = Some sc.
Proof.
  intros O0 Oq W S1 S2 Ie Io. unfold single, sane. rewrite S1, S2, !Z.ltb_irrefl. cbn [negb andb].
  destruct (well_span d _ O0 Oq W Ie) as (te & E1 & E2 & E3 & E4 & E5 & E6).
  assert (MA : forall l, (forall o, In o l -> In o (infos d) /\ together o (s_ego s)) -> exists x, make_agents d s model l = Some x).
  { induction l as [|o l IH]; intros Hl; cbn.
    - unfold make_agent. rewrite <- E2, (find_id d te (proj1 W) E1). cbv zeta. rewrite S1.
      destruct (contiguous_init te (i_start (s_ego s)) E3 E6) as (ms & X & _); [lia|]. rewrite X. eauto.
    - destruct IH as (x & Ex); [intros; apply Hl; now right|]. destruct (Hl o (or_introl eq_refl)) as [O1 O2].
      destruct (well_span d _ O0 Oq W O1) as (t2 & F1 & F2 & F3 & F4 & F5 & F6).
      unfold make_agent. rewrite <- F2, (find_id d t2 (proj1 W) F1). cbv zeta. rewrite S1.
      destruct (contiguous_init t2 (Z.max (i_start o) (i_start (s_ego s))) F3) as (ms & X & _).
      + destruct (Z.max_spec (i_start o) (i_start (s_ego s))) as [[_ ->]|[_ ->]]; assumption.
      + unfold together in O2. lia.
      + rewrite X, Ex. eauto. }
  destruct (MA _ Io) as (x & ->). eauto.
Qed.

(** The longest beginning of the list whose members satisfy [f]. *)
Fixpoint until {A} (f : A -> bool) (l : list A) : list A :=
  match l with [] => [] | x :: r => if f x then x :: until f r else [] end.

(** With well recorded tracks generation succeeds; per file it gives the scenarios of
    the first num_scenarios vehicles, up to the first excluded one. *)
Theorem C89_succeeds (files : list (list (track MS))) model excluded num : 0 <= offset -> (exists q, offset = 100 * q) ->
  Forall well_recorded files ->
  exists scs, create files model excluded num = Some scs /\
    map (fun sc => i_id (s_ego (ds_info sc))) scs =
    flat_map (fun d => until (fun id => negb (existsb (Z.eqb id) excluded)) (firstn num (map i_id (infos d)))) files.
Proof.
  intros O0 Oq. induction 1 as [|d files W Fs IH]; cbn [create_full]; [eexists; split; reflexivity|].
  destruct (C89_scenarios d) as (ss & E & M & P). rewrite E.
  assert (FF : forall l k, incl l ss -> exists x, from_file d model excluded num k l = Some x /\
     map (fun sc => i_id (s_ego (ds_info sc))) x =
     until (fun id => negb (existsb (Z.eqb id) excluded)) (firstn (num - k) (map (fun s => i_id (s_ego s)) l))).
  { induction l as [|s l IHl]; intros k HI; cbn [from_file].
    - exists []. split; [reflexivity|]. rewrite firstn_nil. reflexivity.
    - destruct (k <? num)%nat eqn:Kn; cbn [andb].
      + apply Nat.ltb_lt in Kn. replace (num - k)%nat with (Datatypes.S (num - Datatypes.S k)) by lia. cbn [map firstn until].
        destruct (existsb (Z.eqb (i_id (s_ego s))) excluded) eqn:Ex; cbn [negb]; [exists []; split; reflexivity|].
        assert (Hs : In s ss) by (apply HI; now left). destruct (P s Hs) as (P1 & P2 & P3).
        destruct (single_some d s model O0 Oq W P1 P2) as (sc & Sc).
        { rewrite <- M. now apply in_map. }
        { intros o Ho. apply P3 in Ho. tauto. }
        rewrite Sc. destruct (IHl (Datatypes.S k)) as (x & Ex1 & Ex2); [intros y Hy; apply HI; now right|].
        rewrite Ex1. eexists. split; [reflexivity|]. cbn [map]. rewrite Ex2. f_equal.
        unfold single in Sc. destruct (sane s); [|discriminate]. destruct (make_agents d s model (s_others s)); [|discriminate].
        injection Sc as <-. reflexivity.
      + apply Nat.ltb_ge in Kn. replace (num - k)%nat with 0%nat by lia. exists []. split; reflexivity. }
  destruct (FF ss 0%nat (incl_refl _)) as (x & Ex & Mx). rewrite Ex. destruct IH as (y & Ey & My). rewrite Ey.
  eexists. split; [reflexivity|]. rewrite map_app, Mx, My. cbn [flat_map]. f_equal. rewrite Nat.sub_0_r. f_equal. f_equal.
  rewrite <- M. now rewrite map_map.
Qed.

(** No two agents of a scenario share an identifier. *)
Theorem C89_distinct (d : list (track MS)) ss s : NoDup (map t_id d) -> decompose d = Some ss -> In s ss ->
  NoDup (map i_id (s_others s) ++ [i_id (s_ego s)]).
Proof.
  intros N D Hs. destruct (decompose_with_ok (infos d) (fun i => infos_rounded d i) (infos d) (incl_refl _)) as (ss' & E & M & F).
  unfold Model_Dataset.decompose in D. cbv zeta in D. rewrite E in D. injection D as <-.
  rewrite Forall_forall in F. destruct (F s Hs) as (_ & _ & _ & ->).
  assert (X : NoDup (map i_id (others_of (infos d) (s_ego s)))).
  { unfold others_of. apply NoDup_map_filter. now apply infos_ids. }
  apply NoDup_rev in X. apply NoDup_rev in X. rewrite <- (rev_involutive (_ ++ _)). apply NoDup_rev.
  rewrite rev_unit. constructor; [|rewrite rev_involutive in X; now apply NoDup_rev].
  rewrite <- in_rev. intros Hin. apply in_map_iff in Hin as (o & Eo & Ho). apply others_in in Ho. tauto.
Qed.
End C89.

Definition ex_tr (id first : Z) (n : nat) : track nat :=
  mkTrack id (100 * first) (100 * (first + Z.of_nat n - 1))
    (map (fun k => (100 * (first + Z.of_nat k), k)) (seq 0 n)) "car" 4.

Lemma ex_tr_contiguous id first n : (0 < n)%nat -> contiguous (ex_tr id first n).
Proof.
  intros H. split; [|split].
  - exists first, (first + Z.of_nat n - 1). cbn [ex_tr t_first t_last]. lia.
  - intros t. cbn [ex_tr t_first t_last t_states]. split.
    + intros (ms & X). apply in_map_iff in X as (k & E & Hk). apply (f_equal fst) in E. cbn [fst] in E. subst t. apply in_seq in Hk.
      split; [eauto|]. lia.
    + intros ((q & ->) & B). exists (Z.to_nat (q - first)). apply in_map_iff. exists (Z.to_nat (q - first)).
      split; [|apply in_seq; lia]. f_equal. lia.
  - cbn [ex_tr t_states]. rewrite map_map. cbn [fst]. apply FinFun.Injective_map_NoDup; [|apply seq_NoDup]. intros x y E. lia.
Qed.

(** One excluded ego ends its whole file; num_scenarios counts per file; *)
Theorem C89_excluded_refuted : exists files : list (list (track nat)),
  (exists s1 s2, create_full (fun _ => true) 0 6 files false [] 1 = Some [s1; s2]) /\
  create_full (fun _ => true) 0 6 files false [1] 9 = Some [] /\
  (exists scs, create_full (fun _ => true) 0 6 files false [] 9 = Some scs /\ length scs = 4%nat).
Proof.
  exists [[ex_tr 1 0 5; ex_tr 2 1 5]; [ex_tr 1 0 5; ex_tr 2 1 5]].
  split; [eexists _, _; reflexivity|]. split; [reflexivity|]. eexists. split; reflexivity.
Qed.

(** a vehicle whose track ends before its start plus the offset makes the generation of
    all scenarios raise. *)
Theorem C89_offset_refuted : exists d : list (track nat), (forall tr, In tr d -> contiguous tr) /\
  (exists scs, create_full (fun _ => true) 0 6 [d] false [] 9 = Some scs /\ length scs = 2%nat) /\
  create_full (fun _ => true) 300 6 [d] false [] 9 = None.
Proof.
  exists [ex_tr 1 0 9; ex_tr 2 2 2]. split; [|split; [eexists; split; reflexivity|reflexivity]].
  intros tr [<-|[<-|[]]]; apply ex_tr_contiguous; lia.
Qed.

(** The replay generator: agents are the TrackIds and the ego, twice if it is one of
    them; without EndTs it raises. *)
Theorem C89_replay_ids track_ids ego : NoDup (replay_ids track_ids ego) <-> ~ In ego track_ids.
Proof.
  assert (D : forall l seen, NoDup (dedup seen l) /\ forall x, In x (dedup seen l) <-> In x l /\ ~ In x seen).
  { induction l as [|a l IH]; intros seen; cbn; [split; [constructor|intros; tauto]|].
    destruct (existsb (Z.eqb a) seen) eqn:B.
    - destruct (IH seen) as [I1 I2]. split; [assumption|]. intros x. rewrite I2.
      apply existsb_exists in B as (y & Y1 & Y2). apply Z.eqb_eq in Y2. subst y.
      split; [tauto|]. intros [[->|H] N]; [contradiction|tauto].
    - destruct (IH (a :: seen)) as [I1 I2].
      assert (Na : ~ In a seen).
      { intros Ha. assert (existsb (Z.eqb a) seen = true); [|congruence]. apply existsb_exists. exists a. split; [assumption|apply Z.eqb_refl]. }
      split.
      + constructor; [|assumption]. rewrite I2. cbn. tauto.
      + intros x. cbn. rewrite I2. cbn. destruct (Z.eq_dec a x) as [->|Nx]; tauto. }
  destruct (D track_ids []) as [D1 D2]. unfold replay_ids. split.
  - intros N Hin. apply NoDup_remove_2 in N. rewrite app_nil_r in N. apply N. apply D2. split; [assumption|intros []].
  - intros Nin. rewrite <- (rev_involutive (_ ++ _)). apply NoDup_rev. rewrite rev_unit.
    constructor; [|now apply NoDup_rev]. rewrite <- in_rev. intros H. apply D2 in H. tauto.
Qed.
Theorem C89_replay_no_end id start : replay_info id start None = inr TypeError.
Proof. reflexivity. Qed.

(** Three vehicles; the third one comes when the first has left. *)
Example C89_nonvacuous : exists d : list (track nat),
  well_recorded (fun _ => true) 100 6 d /\
  exists scs, create_full (fun _ => true) 100 6 [d] false [3] 9 = Some scs /\
    map (fun sc => map d_id (ds_agents sc)) scs = [[2; 1]; [1; 3; 2]] /\
    map (fun sc => map d_valid (ds_agents sc)) scs = [[300; 0]; [-300; 200; 0]].
Proof.
  exists [ex_tr 1 0 6; ex_tr 2 3 7; ex_tr 3 5 7]. split.
  - split; [cbn; repeat constructor; cbn; intuition discriminate|]. split.
    + intros tr [<-|[<-|[<-|[]]]]; apply ex_tr_contiguous; lia.
    + intros tr t0 T (_ & _ & e & ms & pre & post & (l & x & E) & E2 & Be & _ & N).
      assert (Ee := f_equal (fun l => fst (last l (0, 0%nat))) E). cbv beta in Ee. rewrite last_last in Ee. cbn [fst] in Ee.
      assert (Fst : pre = []).
      { destruct pre as [|[t x0] pre]; [reflexivity|]. exfalso.
        assert (true = false); [|discriminate]. apply (N t x0); [now left|].
        apply (f_equal (fun l => fst (hd (0, 0%nat) l))) in E2. cbv beta in E2. cbn [hd fst app] in E2. clear E N.
        destruct T as [<-|[<-|[<-|[]]]]; vm_compute in Ee, E2; subst e t; lia. }
      subst pre. apply (f_equal (fun l => fst (hd (0, 0%nat) l))) in E2. cbv beta in E2. cbn [hd fst app] in E2. clear E N.
      destruct T as [<-|[<-|[<-|[]]]]; vm_compute in E2; subst t0; vm_compute; discriminate.
  - eexists. split; [reflexivity|]. split; reflexivity.
Qed.

Print Assumptions C89_rounding.
Print Assumptions C89_usable.
Print Assumptions C89_scenarios.
Print Assumptions C89_agents.
Print Assumptions C89_succeeds.
Print Assumptions C89_distinct.
Print Assumptions C89_excluded_refuted.
Print Assumptions C89_offset_refuted.
Print Assumptions C89_replay_ids.
Print Assumptions C89_replay_no_end.
