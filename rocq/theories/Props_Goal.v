(** C29, C30: goal definitions. *)
From Coq Require Import List ZArith Bool Lia Reals Lra Sorted.
From Verif Require Import Model_Goal Spec_Goal Proof_Goal Model_Angle Spec_Angle Proof_Angle Props_Angle.
Import ListNotations.

(** C29. For every nesting of sequential goals and every history of AtGoal
    calls, the i-th call answers true exactly if the sub-goals have been
    accomplished one after the other during the calls so far. *)
Theorem C29_reached_iff_accomplished_in_order :
  forall (O : Type) (ts : list (task O)) (h : list O),
    nonempty (InOrder ts) ->
    exists answers g,
      run_goal (fresh (InOrder ts)) h = Some (answers, g) /\
      length answers = length h /\
      forall i, i < length h ->
        (nth_error answers i = Some true <-> accomplished (InOrder ts) (firstn (S i) h)).
Proof.
  intros O ts h N. pose proof N as N'. apply nonempty_seq in N. destruct N as [N1 N2].
  assert (G : Forall (@good O) ts).
  { rewrite Forall_forall in *. intros t I. apply all_good. auto. }
  destruct (seq_run ts N1 G N2 h) as (bs & g & R & L & _ & B).
  exists bs, g. split; auto. split; auto. intros i Hi. rewrite B. split.
  - intros [_ A]. constructor. exact A.
  - intros A. split; auto. apply acc_seq_inv. exact A.
Qed.
Print Assumptions C29_reached_iff_accomplished_in_order.

(** With plain (stateless) sub-goals this says: there are strictly increasing
    calls, one per sub-goal, at which the sub-goals were satisfied in order. *)
Definition visited_in_order {O} (ps : list (O -> bool)) (h : list O) : Prop :=
  exists calls : list nat,
    length calls = length ps /\ StronglySorted lt calls /\
    forall j p i, nth_error ps j = Some p -> nth_error calls j = Some i ->
      exists x, nth_error h i = Some x /\ p x = true.

Lemma nth_error_skipn' {A} m : forall (h : list A) k, nth_error (skipn m h) k = nth_error h (m + k).
Proof.
  induction m; intros h k; simpl; [reflexivity|]. destruct h; simpl; [destruct k; reflexivity|]. apply IHm.
Qed.

Lemma visited_accomplished {O} (ps : list (O -> bool)) : forall h,
  accomplished_all (map Visit ps) h <-> visited_in_order ps h.
Proof.
  induction ps as [|p ps IH]; intros h; simpl.
  - split; [|intros; constructor]. intros _. exists []. split; auto. split; [constructor|].
    intros [|j]; discriminate.
  - split.
    + intros A. apply acc_all_cons_inv in A. destruct A as (h1 & h2 & -> & A & B).
      apply IH in B. destruct B as (cs & L & S & V).
      apply acc_visit_inv in A. destruct A as (x & I & T). apply In_nth_error in I. destruct I as [i I].
      exists (i :: map (fun k => length h1 + k) cs). split; [simpl; rewrite map_length; auto|]. split.
      * constructor.
        -- clear - S. induction S; simpl; constructor; auto. rewrite Forall_forall in *.
           intros y Y. apply in_map_iff in Y. destruct Y as (z & <- & Z). apply H in Z. lia.
        -- rewrite Forall_forall. intros y Y. apply in_map_iff in Y. destruct Y as (z & <- & Z).
           assert (i < length h1) by (apply nth_error_Some; congruence). lia.
      * intros [|j] q k Q K; simpl in *.
        -- injection Q as <-. injection K as <-. exists x. split; auto.
           rewrite nth_error_app1; auto. apply nth_error_Some; congruence.
        -- rewrite nth_error_map in K. destruct (nth_error cs j) as [k'|] eqn:E; [|discriminate].
           injection K as <-. destruct (V j q k' Q E) as (y & Y & T'). exists y. split; auto.
           rewrite nth_error_app2 by lia. replace (length h1 + k' - length h1) with k' by lia. exact Y.
    + intros (cs & L & S & V). destruct cs as [|i cs]; [discriminate|].
      destruct (V 0 p i eq_refl eq_refl) as (x & X & T).
      rewrite <- (firstn_skipn (Datatypes.S i) h). constructor.
      * apply acc_visit with x; auto. apply (nth_error_In _ i).
        assert (Hl : i < length h) by (apply nth_error_Some; congruence).
        rewrite <- X. rewrite <- (firstn_skipn (Datatypes.S i) h) at 2.
        rewrite nth_error_app1; auto. rewrite firstn_length. lia.
      * apply IH. inversion S as [|? ? S' F]; subst. exists (map (fun k => k - Datatypes.S i) cs).
        split; [rewrite map_length; simpl in L; lia|]. split.
        -- clear - S' F. induction S'; simpl; constructor; auto.
           ++ inversion F; auto.
           ++ rewrite Forall_forall in *. intros y Y. apply in_map_iff in Y. destruct Y as (z & <- & Z).
              pose proof (F z (or_intror Z)). pose proof (F a (or_introl eq_refl)). apply H in Z. lia.
        -- intros j q k Q K. rewrite nth_error_map in K.
           destruct (nth_error cs j) as [k'|] eqn:E; [|discriminate]. injection K as <-.
           destruct (V (Datatypes.S j) q k' Q E) as (y & Y & T'). exists y. split; auto.
           assert (i < k') by (rewrite Forall_forall in F; apply F; eapply nth_error_In; eauto).
           rewrite nth_error_skipn'. rewrite <- Y. f_equal. lia.
Qed.

Theorem C29_plain_subgoals_at_increasing_calls :
  forall (O : Type) (ps : list (O -> bool)) (h : list O),
    ps <> [] ->
    exists answers g,
      run_goal (fresh (InOrder (map Visit ps))) h = Some (answers, g) /\
      length answers = length h /\
      forall i, i < length h ->
        (nth_error answers i = Some true <-> visited_in_order ps (firstn (S i) h)).
Proof.
  intros O ps h N.
  destruct (C29_reached_iff_accomplished_in_order O (map Visit ps) h) as (a & g & R & L & B).
  { apply nonempty_seq. split; [destruct ps; [congruence|discriminate]|].
    rewrite Forall_forall. intros t I. apply in_map_iff in I. destruct I as (p & <- & _). exact I. }
  exists a, g. split; auto. split; auto. intros i Hi. rewrite (B i Hi), <- visited_accomplished.
  split; intros A; [apply acc_seq_inv|constructor]; exact A.
Qed.
Print Assumptions C29_plain_subgoals_at_increasing_calls.

(** At most one sub-goal per call, progress is never lost, and true stays true. *)
Theorem C29_at_most_one_subgoal_per_call :
  forall (O : Type) (gs : list (goal O)) last x b g',
    at_goal (GSeq gs last) x = Some (b, g') ->
    (last_sequential_goal g' = last \/ last_sequential_goal g' = (last + 1)%Z) /\
    (b = true <-> last_sequential_goal g' = (Z.of_nat (length gs) - 1)%Z).
Proof.
  intros O gs last x b g' H. cbn [at_goal] in H.
  destruct (Z.eqb_spec last (-1)).
  - destruct (ask _ gs 0) as [[c gs']|]; [|discriminate]. injection H as <- <-. simpl.
    rewrite Z.eqb_eq. destruct c; split; try tauto; lia.
  - destruct (Z.leb_spec (last + 1) (Z.of_nat (length gs) - 1)).
    + destruct (ask _ gs _) as [[c gs']|]; [|discriminate]. injection H as <- <-. simpl.
      rewrite Z.eqb_eq. destruct c; split; try tauto; lia.
    + injection H as <- <-. simpl. rewrite Z.eqb_eq. tauto.
Qed.
Print Assumptions C29_at_most_one_subgoal_per_call.

Corollary C29_true_stays_true :
  forall (O : Type) (ts : list (task O)) (h : list O) answers g i j,
    nonempty (InOrder ts) -> run_goal (fresh (InOrder ts)) h = Some (answers, g) ->
    i <= j < length h -> nth_error answers i = Some true -> nth_error answers j = Some true.
Proof.
  intros O ts h answers g i j N R Hij Hi.
  destruct (C29_reached_iff_accomplished_in_order O ts h N) as (a & g' & R' & L & B).
  rewrite R in R'. injection R' as <- <-. apply B; [lia|]. apply B in Hi; [|lia].
  replace (firstn (S j) h) with ([] ++ firstn (S i) h ++ skipn (S i) (firstn (S j) h)).
  - apply acc_mono. exact Hi.
  - cbn [app]. transitivity (firstn (S i) (firstn (S j) h) ++ skipn (S i) (firstn (S j) h)); [|apply firstn_skipn].
    rewrite firstn_firstn. repeat f_equal. lia.
Qed.

(** GetNextGoal names the sub-goal the next AtGoal call asks about: the call advances exactly if that sub-goal is
    reached; and there is no next goal exactly when the sequence is completed. *)
Theorem C29_next_goal_is_the_one_asked :
  forall (O : Type) (gs : list (goal O)) last x b g',
    gs <> [] -> (-1 <= last < Z.of_nat (length gs))%Z ->
    at_goal (GSeq gs last) x = Some (b, g') ->
    match get_next_goal (GSeq gs last) with
    | None => last = (Z.of_nat (length gs) - 1)%Z /\ b = true /\ g' = GSeq gs last
    | Some sub => exists r sub', at_goal sub x = Some (r, sub') /\
        (last_sequential_goal g' = (last + 1)%Z <-> r = true) /\
        nth_error gs (Z.to_nat (last + 1)) = Some sub
    end.
Proof.
  intros O gs last x b g' Hne Hl H. cbn [at_goal get_next_goal] in *.
  assert (Ask : forall i c gs', ask (fun t => at_goal t x) gs i = Some (c, gs') ->
            exists t t', nth_error gs i = Some t /\ at_goal t x = Some (c, t')).
  { clear. induction gs as [|t gs IH]; intros i c gs' H; [destruct i; discriminate|].
    destruct i as [|i]; cbn in H.
    - destruct (at_goal t x) as [[c' t']|] eqn:E; [|discriminate]. injection H as <- _. exists t, t'. auto.
    - destruct (ask _ gs i) as [[c' r']|] eqn:E; [|discriminate]. injection H as <- _.
      destruct (IH _ _ _ E) as (u & u' & Hu & Eu). exists u, u'. auto. }
  destruct (Z.eqb_spec last (-1)) as [->|N1].
  - destruct (ask _ gs 0) as [[c gs']|] eqn:E; [|discriminate]. injection H as <- <-.
    destruct (Ask _ _ _ E) as (t & t' & Ht & Et). rewrite Ht. exists c, t'. split; [exact Et|]. split; [|exact Ht].
    cbn [last_sequential_goal]. destruct c; split; intros; try reflexivity; try lia; discriminate.
  - destruct (Z.leb_spec (last + 1) (Z.of_nat (length gs) - 1)) as [L|L].
    + destruct (ask _ gs _) as [[c gs']|] eqn:E; [|discriminate]. injection H as <- <-.
      destruct (Ask _ _ _ E) as (t & t' & Ht & Et).
      destruct (Z.ltb_spec (last + 1) (Z.of_nat (length gs))) as [L'|L']; [|lia].
      rewrite Ht. exists c, t'. split; [exact Et|]. split; [|reflexivity].
      cbn [last_sequential_goal]. destruct c; split; intros; try reflexivity; try lia; discriminate.
    + destruct (Z.ltb_spec (last + 1) (Z.of_nat (length gs))) as [L'|L']; [lia|].
      injection H as <- <-. split; [lia|]. split; [apply Z.eqb_eq; lia|reflexivity].
Qed.
Print Assumptions C29_next_goal_is_the_one_asked.

(** A clone is a new object with the same sub-goals and progress; if the sub-goals are plain, calls on the clone never
    change the original. *)
Theorem C29_clone_of_plain_goals_is_independent :
  forall (O : Type) (h : gheap O) l h1 c, hclone h l = Some (h1, c) ->
    nth_error h c = None /\ nth_error h1 c = nth_error h l /\ (forall k, k < length h -> nth_error h1 k = nth_error h k) /\
    forall subs last fuel x b h2, nth_error h l = Some (subs, last) -> (forall sub m, In sub subs -> sub <> HRef m) ->
      hat_goal fuel h1 c x = Some (b, h2) -> nth_error h2 l = Some (subs, last).
Proof.
  intros O h l h1 c H. unfold hclone in H. destruct (nth_error h l) as [o|] eqn:E; [|discriminate]. injection H as <- <-.
  assert (Hl : l < length h) by (apply nth_error_Some; congruence).
  assert (Hc : nth_error (h ++ [o]) (length h) = Some o) by (rewrite nth_error_app2, Nat.sub_diag by lia; reflexivity).
  split; [apply nth_error_None; lia|]. split; [exact Hc|]. split; [intros k Hk; now rewrite nth_error_app1|].
  intros subs last fuel x b h2 Eo Hplain Ha. injection Eo as ->.
  assert (Hset : forall o', nth_error (hset (h ++ [(subs, last)]) (length h) o') l = Some (subs, last)).
  { intros o'. unfold hset. rewrite firstn_app, firstn_all, Nat.sub_diag. cbn [firstn]. rewrite app_nil_r.
    rewrite nth_error_app1 by exact Hl. exact E. }
  destruct fuel as [|f]; [discriminate|]. cbn [hat_goal] in Ha. rewrite Hc in Ha.
  match type of Ha with (if ?t then _ else _) = _ => destruct t end.
  - destruct (nth_error subs _) as [[p|m]|] eqn:En; [| |discriminate].
    + injection Ha as _ <-. apply Hset.
    + exfalso. exact (Hplain _ m (nth_error_In _ _ En) eq_refl).
  - injection Ha as _ <-. rewrite nth_error_app1 by exact Hl. exact E.
Qed.
Print Assumptions C29_clone_of_plain_goals_is_independent.

(** An empty sequential goal is undefined behaviour (the expectation only
    prints), for every agent. *)
Theorem C29_empty_goal_is_undefined : forall (O : Type) (x : O), at_goal (fresh (InOrder [])) x = None.
Proof. reflexivity. Qed.

(** Clone shares nested sequential sub-goals: asking the clone changes what the
    original answers. *)
Theorem C29_clone_shares_progress_refuted :
  exists (h : gheap nat) l h1 c h2 b x y,
    hclone h l = Some (h1, c) /\
    hat_goal 5 h1 c x = Some (b, h2) /\
    (* original asked with y before / after the clone was asked with x *)
    option_map fst (hat_goal 5 h1 l y) <> option_map fst (hat_goal 5 h2 l y).
Proof.
  exists [([HAtom (Nat.eqb 1); HAtom (Nat.eqb 2)], (-1)%Z); ([HRef 0], (-1)%Z)], 1.
  eexists. eexists. eexists. eexists. exists 1, 2.
  split; [reflexivity|]. split; [reflexivity|]. vm_compute. discriminate.
Qed.

(** Non-vacuity: a nested goal, a history and the answers. *)
Definition ex_task : task nat :=
  InOrder [Visit (Nat.eqb 1); InOrder [Visit (Nat.eqb 2); Visit (Nat.eqb 3)]; Visit (Nat.eqb 1)].
Example C29_nonvacuous :
  nonempty ex_task /\
  option_map fst (run_goal (fresh ex_task) [2; 1; 3; 2; 1; 3; 3; 1; 9])
  = Some [false; false; false; false; false; false; false; true; true].
Proof. split; [simpl; repeat split; discriminate|reflexivity]. Qed.

(** C30 *)
Local Open Scope R_scope.

Lemma Rleb_iff a b : Rleb a b = true <-> a <= b.
Proof. unfold Rleb. destruct (Rle_dec a b); split; auto; discriminate. Qed.
Lemma Rltb_iff a b : Rltb a b = true <-> a < b.
Proof. unfold Rltb. destruct (Rlt_dec a b); split; auto; discriminate. Qed.

Theorem C30_state_limits_region :
  forall (Poly : Type) (within : R * R -> Poly -> bool) poly lo hi a,
    at_goal_state_limits within poly (lo, hi) a = true <->
    within (o_x a, o_y a) poly = true /\ lo <= o_theta a <= hi.
Proof.
  intros. unfold at_goal_state_limits. rewrite !andb_true_iff, !Rleb_iff. simpl. tauto.
Qed.
Print Assumptions C30_state_limits_region.

(** The interval test is not modulo 2pi. *)
Theorem C30_state_limits_wraparound_refuted :
  exists (a b : pose_obs) lo hi, lo < hi /\
    o_x a = o_x b /\ o_y a = o_y b /\ same_direction PI (o_theta a) (o_theta b) /\
    at_goal_state_limits (Poly:=unit) (fun _ _ => true) tt (lo, hi) a = true /\
    at_goal_state_limits (Poly:=unit) (fun _ _ => true) tt (lo, hi) b = false.
Proof.
  pose proof PI_RGT_0.
  exists {| o_x := 0; o_y := 0; o_theta := PI; o_vel := 1 |},
         {| o_x := 0; o_y := 0; o_theta := - PI; o_vel := 1 |}, (PI / 2), PI.
  simpl. split; [lra|]. split; auto. split; auto. split; [exists 1%Z; lra|]. split.
  - apply C30_state_limits_region. simpl. split; auto. lra.
  - apply not_true_iff_false. rewrite C30_state_limits_region. simpl. lra.
Qed.
Print Assumptions C30_state_limits_wraparound_refuted.

(** The lane goal accepts exactly if the velocity is in the closed range, the
    position in the polygon, and the lane direction is reached from the agent's
    orientation by turning left by at most [left] or right by at most [right];
    this test is wrap-around safe. *)
Theorem C30_lane_goal_region :
  forall (Poly Line : Type) (within : R * R -> Poly -> bool) (tangent : Line -> R * R -> R)
         p shape line left right vmin vmax a,
    0 < p -> 0 <= left < p -> 0 <= right <= p ->
    at_goal_frenet within tangent p exact shape line (left, right) (vmin, vmax) a = true <->
    vmin <= o_vel a <= vmax /\ within (o_x a, o_y a) shape = true /\
    exists r, - right <= r <= left /\ rotates p (o_theta a) r (tangent line (o_x a, o_y a)).
Proof.
  intros Poly Line within tangent p shape line left right vmin vmax a Hp Hl Hr.
  unfold at_goal_frenet. simpl.
  set (t := tangent line (o_x a, o_y a)).
  destruct (Rltb (o_vel a) vmin) eqn:V1; simpl.
  { apply Rltb_iff in V1. split; [discriminate|]. intros [H _]. lra. }
  destruct (Rltb vmax (o_vel a)) eqn:V2; simpl.
  { apply Rltb_iff in V2. split; [discriminate|]. intros [H _]. lra. }
  assert (V : vmin <= o_vel a <= vmax).
  { unfold Rltb in V1, V2. destruct (Rlt_dec (o_vel a) vmin); [discriminate|].
    destruct (Rlt_dec vmax (o_vel a)); [discriminate|]. lra. }
  destruct (within (o_x a, o_y a) shape); simpl; [|split; [discriminate|intros (_ & H & _); discriminate]].
  destruct (C21_signed_angle_difference p t (o_theta a) Hp) as (A & B & C & _ & _).
  set (d := SignedAngleDiff p exact t (o_theta a)) in *.
  destruct (Rleb d left && Rleb (- right) d)%bool eqn:E.
  - apply andb_true_iff in E. rewrite !Rleb_iff in E. split; auto. intros _.
    split; auto. split; auto. exists d. split; [lra|exact B].
  - split; [discriminate|]. intros (_ & _ & r & Hr' & R).
    exfalso. apply andb_false_iff in E.
    assert (D : d = r).
    { destruct B as [k B]. destruct R as [j R]. apply (congr_unique p (- p)); try lra.
      exists (k - j)%Z. rewrite minus_IZR. lra. }
    rewrite D in E. destruct E as [E|E]; apply not_true_iff_false in E; rewrite Rleb_iff in E; lra.
Qed.
Print Assumptions C30_lane_goal_region.

Example C30_nonvacuous :
  at_goal_frenet (Poly:=unit) (Line:=unit) (fun _ _ => true) (fun _ _ => PI - 1/8) PI exact tt tt
    (1/2, 1/2) (5, 20) {| o_x := 0; o_y := 0; o_theta := - PI + 1/8; o_vel := 20 |} = true.
Proof.
  pose proof PI_RGT_0. assert (1 < PI) by (pose proof PI2_3_2; lra).
  apply C30_lane_goal_region; try lra. simpl. split; [lra|]. split; auto.
  exists (- (1/4)). split; [lra|]. exists (-1)%Z. lra.
Qed.
