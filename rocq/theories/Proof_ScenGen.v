(** Lemmas for configurable scenario generation. *)

From Coq Require Import String List Arith Lia Bool QArith Sorting.Sorted.
Import ListNotations.
From Verif Require Import Model_BenchRun Model_ScenGen Spec_ScenGen.
Local Open Scope nat_scope.
Local Open Scope list_scope.

Section Gen.
Context {St Geo Beh Exe Dyn Goal Cor Par Obs Val E : Type}.
Notation source := (@source St Geo Beh Exe Dyn Goal Cor Par Val E).
Notation agent := (@agent St Geo Beh Exe Dyn Goal Cor Par).
Notation out := (@out St Geo Beh Exe Dyn Goal Cor).

Lemma gbind_ok {A B} (m : @call E A) (k : A -> @call E B) e e' b :
  gbind m k e = (e', inl b) -> exists e1 a, m e = (e1, inl a) /\ k a e1 = (e', inl b).
Proof.
  unfold gbind. destruct (m e) as [e1 [a|x]]; intros H; [|discriminate]. exists e1, a. auto.
Qed.

Lemma build_nth (par : Par) sts : forall i (gs : list Geo) (bs : list Beh) (es : list Exe) (ds : list Dyn)
    (gls : list Goal), length gs = length sts -> length bs = length sts -> length es = length sts ->
  length ds = length sts -> length gls = length sts ->
  length (build_agents i par sts gs bs es ds gls : list agent) = length sts /\
  forall k, k < length sts -> exists a : agent, nth_error (build_agents i par sts gs bs es ds gls) k = Some a /\
    nth_error sts k = Some (ag_state a : St) /\ nth_error gs k = Some (ag_geo a) /\
    nth_error bs k = Some (ag_beh a) /\ nth_error es k = Some (ag_exe a) /\
    nth_error ds k = Some (ag_dyn a) /\ nth_error gls k = Some (ag_goal a) /\ ag_params a = par.
Proof.
  induction sts as [|s sts IH]; intros i gs bs es ds gls Hg Hb He Hd Hl;
    destruct gs, bs, es, ds, gls; cbn in *; try discriminate.
  - split; [reflexivity|]. intros; lia.
  - edestruct (IH (S i) gs bs es ds gls) as [L N]; [lia..|]. split; [now rewrite L|].
    intros [|k] Hk; cbn.
    + eexists; split; [reflexivity|]. cbn. repeat split.
    + apply N. lia.
Qed.

Lemma create_ok (sts : list St) (gs : list Geo) (bs : list Beh) (es : list Exe) (ds : list Dyn)
    (gls : list Goal) cs (par : Par) (l : list agent) :
  create_source_config_agents sts gs bs es ds gls cs par = inl l ->
  l = build_agents 0 par sts gs bs es ds gls /\ length gs = length sts /\ length bs = length sts /\
  length es = length sts /\ length ds = length sts /\ length gls = length sts /\ length cs = length sts.
Proof.
  unfold create_source_config_agents. cbv zeta.
  destruct (_ && _) eqn:B; [|discriminate]. intros H. injection H as <-.
  rewrite !andb_true_iff, !Nat.eqb_eq in B. intuition.
Qed.

(** What one source contributes. *)
Definition contributes (s : source) (o : out) (ags : list agent) (fl : list bool) : Prop :=
  length ags = length (o_states o) /\ length fl = length (o_states o) /\
  (o_states o <> [] -> o_ctrl o = fl) /\
  forall k a, nth_error ags k = Some a -> is_kth s o k a.

Lemma one_source_ok idx (s : source) c sts gs kw e e' ags fl :
  one_source idx s c sts gs kw e = (e', inl (ags, fl)) ->
  exists bs es ds gls, let o := mkOut c sts gs bs es ds fl gls in
   ((exists kw kw' e e', rd_beh s idx (o_cor o) (o_states o) kw e = (e', inl (o_behs o, kw'))) /\
    (exists kw kw' e e', rd_exe s idx (o_cor o) (o_states o) kw e = (e', inl (o_exes o, kw'))) /\
    (exists kw kw' e e', rd_dyn s idx (o_cor o) (o_states o) kw e = (e', inl (o_dyns o, kw'))) /\
    (exists kw kw' e e', rd_ctrl s idx (o_cor o) (o_states o) kw e = (e', inl (o_ctrl o, kw'))) /\
    (exists kw kw' e e', rd_goal s idx (o_cor o) (o_states o) (o_ctrl o) kw e = (e', inl (o_goals o, kw')))) /\
   contributes s o ags fl.
Proof.
  unfold one_source. intros H.
  apply gbind_ok in H as (e1 & [bs kb] & Hb & H). cbv zeta in H.
  apply gbind_ok in H as (e2 & [es ke] & He & H). cbv zeta in H.
  apply gbind_ok in H as (e3 & [ds kd] & Hd & H). cbv zeta in H.
  apply gbind_ok in H as (e4 & [cs kc] & Hc & H). cbv zeta in H.
  apply gbind_ok in H as (e5 & [gls kg] & Hg & H).
  apply gbind_ok in H as (e6 & l & Hl & H). cbn [fst snd] in *.
  unfold glift in Hl. injection Hl as <- Hl. unfold gret in H. injection H as <- <- <-.
  apply create_ok in Hl as (-> & Lg & Lb & Le & Ld & Ll & Lc).
  exists bs, es, ds, gls. cbn [o_cor o_states o_behs o_exes o_dyns o_ctrl o_goals o_geos].
  split; [repeat split; eauto 10|].
  edestruct (build_nth (src_params s) sts 0 gs bs es ds gls) as [L N]; try eassumption.
  unfold contributes, update_road_corridors. cbn [o_states o_ctrl]. rewrite map_length, L.
  split; [reflexivity|]. split; [exact Lc|]. split; [reflexivity|].
  intros k a Ha. rewrite nth_error_map in Ha.
  assert (Hk : k < length sts).
  { destruct (Nat.lt_ge_cases k (length sts)) as [|G]; [assumption|].
    assert (nth_error (build_agents 0 (src_params s) sts gs bs es ds gls : list agent) k = None)
      by (apply nth_error_None; lia).
    rewrite H in Ha. discriminate. }
  destruct (N k Hk) as (a0 & E0 & P). rewrite E0 in Ha. cbn in Ha. injection Ha as <-.
  destruct P as (P1 & P2 & P3 & P4 & P5 & P6 & P7). unfold is_kth. cbn. repeat split; assumption.
Qed.

Lemma collect_ok idx : forall (srcs : list source) e e' l,
  collect idx srcs e = (e', inl l) ->
  Forall2 (fun s x => let '(s', c, sts, gs, kw) := x in s' = s /\ src_corridor s = inl c /\
     exists e1 e2, rd_states s idx c e1 = (e2, inl (sts, gs, kw))) srcs l.
Proof.
  induction srcs as [|s r IH]; intros e e' l H; cbn [collect] in H.
  - unfold gret in H. injection H as <- <-. constructor.
  - apply gbind_ok in H as (e1 & c & Hc & H). unfold glift in Hc. injection Hc as <- Hc.
    apply gbind_ok in H as (e2 & x & Hs & H).
    apply gbind_ok in H as (e3 & l1 & H1 & H). unfold gret in H. injection H as <- <-.
    constructor; [|eapply IH; eassumption].
    destruct x as [[sts gs] kw]. cbn. repeat split; auto. eauto.
Qed.

(** One entry of the flat result. *)
Lemma second_ok idx : forall (srcs : list source) l, 
  Forall2 (fun s x => let '(s', c, sts, gs, kw) := x in s' = s /\ src_corridor s = inl c /\
     exists e1 e2, rd_states s idx c e1 = (e2, inl (sts, gs, kw))) srcs l ->
  forall e e' ags fl, second_loop idx l e = (e', inl (ags, fl)) ->
  exists outs agss fls, Forall2 (returned idx) srcs outs /\
    ags = concat agss /\ fl = concat fls /\ length agss = length outs /\ length fls = length outs /\
    forall i s o, nth_error srcs i = Some s -> nth_error outs i = Some o ->
      exists ai fi, nth_error agss i = Some ai /\ nth_error fls i = Some fi /\ contributes s o ai fi.
Proof.
  induction 1 as [|s x srcs l Hx F IH]; intros e e' ags fl H.
  - cbn in H. unfold gret in H. injection H as <- <- <-. exists [], [], [].
    repeat split; [constructor|..]. intros [|i] ? ? H; discriminate.
  - destruct x as [[[[s' c] sts] gs] kw]. destruct Hx as (-> & Hc & e1 & e2 & Hs). cbn [second_loop] in H.
    destruct (length sts =? 0) eqn:Z.
    + apply Nat.eqb_eq, length_zero_iff_nil in Z. subst sts.
      destruct (IH _ _ _ _ H) as (outs & agss & fls & F2 & -> & -> & L1 & L2 & N).
      exists (mkOut c [] gs [] [] [] [] [] :: outs), ([] :: agss), ([] :: fls).
      split; [constructor; [|assumption]|].
      { unfold returned. cbn. split; [assumption|]. split; [eauto 10|]. congruence. }
      repeat split; cbn; try lia.
      intros [|i] s0 o H1 H2; cbn in *.
      * injection H1 as <-. injection H2 as <-. exists [], []. repeat split; cbn; auto.
        all: try congruence.
        all: destruct k; discriminate.
      * eauto.
    + assert (Hne : sts <> []) by (intros ->; discriminate).
      apply gbind_ok in H as (e3 & [a1 f1] & H1 & H). cbv zeta in H.
      apply gbind_ok in H as (e4 & [a2 f2] & H2 & H). unfold gret in H. injection H as <- <- <-.
      apply one_source_ok in H1 as (bs & es & ds & gls & R & Cn).
      destruct (IH _ _ _ _ H2) as (outs & agss & fls & F2 & -> & -> & L1 & L2 & N). cbn [fst snd] in *.
      exists (mkOut c sts gs bs es ds f1 gls :: outs), (a1 :: agss), (f1 :: fls).
      split; [constructor; [|assumption]|].
      { unfold returned. cbn. split; [assumption|]. split; [eauto 10|]. intros _. exact R. }
      repeat split; cbn; try lia.
      intros [|i] s0 o G1 G2; cbn in *.
      * injection G1 as <-. injection G2 as <-. exists a1, f1. auto.
      * eauto.
Qed.

Lemma update_ids_nth : forall (l : list agent) i k,
  nth_error (update_ids i l) k = option_map (set_id (i + k)) (nth_error l k).
Proof.
  induction l as [|a l IH]; intros i [|k]; cbn; auto.
  - now rewrite Nat.add_0_r.
  - rewrite IH. now replace (S i + k) with (i + S k) by lia.
Qed.

Lemma update_ids_length : forall (l : list agent) i, length (update_ids i l) = length l.
Proof. induction l; cbn; auto. Qed.

Lemma flagged_in : forall l i p, In p (flagged i l) <-> i <= p /\ nth_error l (p - i) = Some true.
Proof.
  induction l as [|b l IH]; intros i p; cbn.
  - split; [tauto|]. intros [_ H]. destruct (p - i); discriminate.
  - rewrite in_app_iff, IH. destruct (Nat.eq_dec p i) as [->|N].
    + rewrite Nat.sub_diag. cbn. destruct b; cbn; split; intros H; auto.
      * destruct H as [H|[H _]]; [contradiction|exfalso; lia].
      * destruct H; discriminate.
    + split.
      * intros [H|[H1 H2]]; [destruct b; cbn in H; [destruct H; [lia|tauto]|tauto]|].
        split; [lia|]. replace (p - i) with (S (p - S i)) by lia. exact H2.
      * intros [H1 H2]. right. split; [lia|]. replace (p - i) with (S (p - S i)) in H2 by lia. exact H2.
Qed.

Lemma flagged_sorted : forall l i, StronglySorted lt (flagged i l).
Proof.
  induction l as [|b l IH]; intros i; cbn; [constructor|].
  destruct b; cbn; [|apply IH]. constructor; [apply IH|]. rewrite Forall_forall. intros p Hp.
  apply flagged_in in Hp. lia.
Qed.

Lemma nth_concat {A} : forall (ls : list (list A)) i l k x,
  nth_error ls i = Some l -> nth_error l k = Some x ->
  nth_error (concat ls) (list_sum (map (@length A) (firstn i ls)) + k) = Some x.
Proof.
  induction ls as [|l0 ls IH]; intros [|i] l k x H1 H2; cbn in *; try discriminate.
  - injection H1 as ->. rewrite nth_error_app1; [assumption|]. apply nth_error_Some. congruence.
  - rewrite nth_error_app2 by lia. rewrite <- (IH i l k x H1 H2). f_equal. unfold list_sum. lia.
Qed.

Lemma same_offsets {A} (outs : list out) (ls : list (list A)) :
  length ls = length outs ->
  (forall i o l, nth_error outs i = Some o -> nth_error ls i = Some l -> length l = length (o_states o)) ->
  forall i, list_sum (map (@length A) (firstn i ls)) = offset outs i.
Proof.
  unfold offset. revert ls. induction outs as [|o outs IH]; intros [|l ls] L H i; cbn in *; try discriminate.
  - now rewrite !firstn_nil.
  - destruct i; cbn; [reflexivity|]. f_equal.
    + apply (H 0); reflexivity.
    + apply IH; [lia|]. intros j. apply (H (S j)).
Qed.

Lemma list_sum_concat {A} (ls : list (list A)) : length (concat ls) = list_sum (map (@length A) ls).
Proof. induction ls as [|l ls IH]; [reflexivity|]. cbn [concat map]. rewrite app_length, IH. reflexivity. Qed.

Lemma F2_nth {A B} (P : A -> B -> Prop) : forall l1 l2, Forall2 P l1 l2 -> forall i b,
  nth_error l2 i = Some b -> exists a, nth_error l1 i = Some a /\ P a b.
Proof.
  induction 1; intros [|i] b H1; cbn in *; try discriminate; eauto. injection H1 as <-. eauto.
Qed.
Lemma F2_len {A B} (P : A -> B -> Prop) : forall l1 l2, Forall2 P l1 l2 -> length l1 = length l2.
Proof. induction 1; cbn; auto. Qed.

Theorem single_ok idx (srcs : list source) (obs : nat -> @call E Obs) e e' sc :
  create_single idx srcs obs e = (e', inl sc) ->
  exists outs, Forall2 (returned idx) srcs outs /\
    length (sc_agents sc) = offset outs (length outs) /\
    (forall i s o k, nth_error srcs i = Some s -> nth_error outs i = Some o -> k < length (o_states o) ->
       exists a, nth_error (sc_agents sc) (offset outs i + k) = Some a /\ ag_id a = offset outs i + k /\
         is_kth s o k a /\
         (In (offset outs i + k) (sc_eval sc) <-> nth_error (o_ctrl o) k = Some true)) /\
    StronglySorted lt (sc_eval sc) /\ (forall p, In p (sc_eval sc) -> p < length (sc_agents sc)) /\
    (exists e1 e2, obs idx e1 = (e2, inl (sc_obs sc))).
Proof.
  unfold create_single. intros H. apply gbind_ok in H as (e1 & l & Hl & H).
  apply gbind_ok in H as (e2 & [ags fl] & Hs & H).
  apply gbind_ok in H as (e3 & o & Ho & H). unfold gret in H. injection H as <- <-.
  apply collect_ok in Hl. destruct (second_ok _ _ _ Hl _ _ _ _ Hs) as (outs & agss & fls & F & -> & -> & L1 & L2 & N).
  exists outs. cbn [sc_agents sc_eval sc_obs fst snd]. split; [assumption|].
  assert (OA : forall i, list_sum (map (@length agent) (firstn i agss)) = offset outs i).
  { apply same_offsets; [assumption|]. intros i o0 l0 H1 H2.
    destruct (F2_nth _ _ _ F i o0 H1) as (s & G1 & _).
    destruct (N i s o0 G1 H1) as (ai & fi & E1 & _ & (K & _)). congruence. }
  assert (OF : forall i, list_sum (map (@length bool) (firstn i fls)) = offset outs i).
  { apply same_offsets; [assumption|]. intros i o0 l0 H1 H2.
    destruct (F2_nth _ _ _ F i o0 H1) as (s & G1 & _).
    destruct (N i s o0 G1 H1) as (ai & fi & _ & E2 & (_ & K & _)). congruence. }
  assert (LT : length (concat agss) = offset outs (length outs)).
  { rewrite list_sum_concat, <- OA. rewrite <- L1, firstn_all. reflexivity. }
  assert (LF : length (concat fls) = offset outs (length outs)).
  { rewrite list_sum_concat, <- OF. rewrite <- L2, firstn_all. reflexivity. }
  unfold update_agent_ids. rewrite update_ids_length. split; [assumption|].
  split.
  - intros i s o0 k Hs0 Ho0 Hk. destruct (N i s o0 Hs0 Ho0) as (ai & fi & E1 & E2 & (K1 & K2 & K3 & K4)).
    destruct (nth_error ai k) as [a|] eqn:Ea; [|apply nth_error_None in Ea; lia].
    assert (P := nth_concat _ _ _ _ _ E1 Ea). rewrite OA in P.
    exists (set_id (offset outs i + k) a). rewrite update_ids_nth, P. split; [reflexivity|].
    split; [reflexivity|]. split.
    + specialize (K4 _ _ Ea). unfold is_kth in *. cbn. exact K4.
    + rewrite flagged_in, Nat.sub_0_r. rewrite K3 by (intros Z; rewrite Z in Hk; cbn in Hk; lia).
      destruct (nth_error fi k) as [b|] eqn:Eb; [|apply nth_error_None in Eb; lia].
      assert (Q := nth_concat _ _ _ _ _ E2 Eb). rewrite OF in Q. rewrite Q. split; [tauto|]. split; [lia|tauto].
  - split; [apply flagged_sorted|]. split.
    + intros p Hp. apply flagged_in in Hp as [_ Hp]. rewrite Nat.sub_0_r in Hp. rewrite LT, <- LF.
      apply nth_error_Some. congruence.
    + eauto.
Qed.

Lemma ids_are (l : list agent) : forall i, map (@ag_id St Geo Beh Exe Dyn Goal Cor Par) (update_ids i l) = seq i (length l).
Proof. induction l; cbn; intros i; [reflexivity|]. f_equal. apply IHl. Qed.

Lemma single_ids idx (srcs : list source) (obs : nat -> @call E Obs) e e' sc :
  create_single idx srcs obs e = (e', inl sc) ->
  map (@ag_id St Geo Beh Exe Dyn Goal Cor Par) (sc_agents sc) = seq 0 (length (sc_agents sc)).
Proof.
  unfold create_single. intros H. apply gbind_ok in H as (e1 & l & Hl & H).
  apply gbind_ok in H as (e2 & [ags fl] & Hs & H).
  apply gbind_ok in H as (e3 & o & Ho & H). unfold gret in H. injection H as <- <-. cbn.
  unfold update_agent_ids. now rewrite ids_are, update_ids_length.
Qed.

Lemma create_from_ok (srcs : list source) (obs : nat -> @call E Obs) : forall n i e e' l,
  create_from i n srcs obs e = (e', inl l) ->
  length l = n /\ forall k sc, nth_error l k = Some sc -> exists e1 e2, create_single (i + k) srcs obs e1 = (e2, inl sc).
Proof.
  induction n as [|n IH]; intros i e e' l H; cbn [create_from] in H.
  - unfold gret in H. injection H as <- <-. split; [reflexivity|]. intros [|k]; discriminate.
  - apply gbind_ok in H as (e1 & s & Hs & H). apply gbind_ok in H as (e2 & l1 & H1 & H).
    unfold gret in H. injection H as <- <-. destruct (IH _ _ _ _ H1) as [L N]. split; [cbn; lia|].
    intros [|k] sc Hk; cbn in Hk.
    + injection Hk as <-. rewrite Nat.add_0_r. eauto.
    + replace (i + S k) with (S i + k) by lia. eauto.
Qed.

Lemma well_single idx (srcs : list source) (obs : nat -> @call E Obs) e :
  Forall well_behaved srcs -> (forall i e, exists e' o, obs i e = (e', inl o)) ->
  exists e' sc, create_single idx srcs obs e = (e', inl sc).
Proof.
  intros W O.
  assert (C1 : forall e, exists e' l, collect idx srcs e = (e', inl l) /\
     Forall (fun x => let '(s, c, sts, gs, kw) := x in well_behaved s /\ length gs = length sts) l).
  { induction W as [|s r Ws W IH]; intros e0; cbn [collect].
    - exists e0, []. split; [reflexivity|constructor].
    - destruct Ws as ((c & Hc) & Hs & Hrest) eqn:Ew. clear Ew.
      unfold gbind, glift, gret. rewrite Hc.
      destruct (Hs idx c e0) as (e1 & sts & gs & kw & E1 & L1). rewrite E1.
      destruct (IH e1) as (e2 & l & E2 & F2). rewrite E2. eexists _, _. split; [reflexivity|].
      constructor; [|assumption]. cbn. split; [|assumption]. split; [eauto|]. split; auto. }
  destruct (C1 e) as (e1 & l & E1 & F). unfold create_single, gbind. rewrite E1.
  assert (C2 : forall e, exists e' x, second_loop idx l e = (e', inl x)).
  { clear -F. induction F as [|[[[[s c] sts] gs] kw] r [Ws L] F IH]; intros e; cbn [second_loop].
    - unfold gret. eauto.
    - destruct (length sts =? 0) eqn:Z; [apply IH|].
      destruct Ws as (_ & _ & Hb & He & Hd & Hc & Hg).
      unfold gbind, one_source, glift, gret.
      destruct (Hb idx c sts kw e) as (e1 & lb & kb & E1 & Lb). unfold gbind. rewrite E1. cbn [fst snd].
      match goal with |- context [rd_exe s idx c sts ?k ?x] => destruct (He idx c sts k x) as (e2 & le & ke & E2 & Le) end.
      rewrite E2. cbn [fst snd].
      match goal with |- context [rd_dyn s idx c sts ?k ?x] => destruct (Hd idx c sts k x) as (e3 & ld & kd & E3 & Ld) end.
      rewrite E3. cbn [fst snd].
      match goal with |- context [rd_ctrl s idx c sts ?k ?x] => destruct (Hc idx c sts k x) as (e4 & lc & kc & E4 & Lc) end.
      rewrite E4. cbn [fst snd].
      match goal with |- context [rd_goal s idx c sts ?b ?k ?x] => destruct (Hg idx c sts b k x) as (e5 & lg & kg & E5 & Lg) end.
      rewrite E5. cbn [fst snd]. unfold create_source_config_agents. cbv zeta.
      rewrite L, Lb, Le, Ld, Lc, Lg, Nat.eqb_refl. cbn [andb].
      destruct (IH e5) as (e6 & x & E6). rewrite E6. eauto. }
  destruct (C2 e1) as (e2 & x & E2). rewrite E2. destruct (O idx e2) as (e3 & o & E3). rewrite E3.
  unfold gret. eauto.
Qed.

Lemma well_from (srcs : list source) (obs : nat -> @call E Obs) : 
  Forall well_behaved srcs -> (forall i e, exists e' o, obs i e = (e', inl o)) ->
  forall n i e, exists e' l, create_from i n srcs obs e = (e', inl l).
Proof.
  intros W O. induction n as [|n IH]; intros i e; cbn [create_from].
  - unfold gret. eauto.
  - destruct (well_single i srcs obs e W O) as (e1 & s & E1). unfold gbind. rewrite E1.
    destruct (IH (S i) e1) as (e2 & l & E2). rewrite E2. unfold gret. eauto.
Qed.

End Gen.
