(* C106: the drawing thread, for every schedule of the two threads. *)
From Coq Require Import List ZArith QArith Bool Arith Lia Lqa.
From Verif Require Import Model_Threaded.
Import ListNotations.
Local Open Scope nat_scope.

Section Threaded.
  Context {W : Type}.
  Implicit Types (s : tstate W) (p : picture W).

  (* --- specification --- *)
  Definition draws (l : list (W * Q)) : list (call W) := map (fun x => DrawWorld (fst x) (snd x)) l.
  (* i: the last of the times ts that is not after r *)
  Definition latest (ts : list Q) (r : Q) (i : nat) : Prop :=
    (exists t, nth_error ts i = Some t /\ (t <= r)%Q) /\ forall j t, i < j -> nth_error ts j = Some t -> (r < t)%Q.
  Definition times (l : list (W * Q)) : list Q := map snd l.
  Definition worlds (l : list (W * Q)) : list W := map fst l.
  (* the picture shows the latest of the worlds known when the search began, or one as much later as worlds arrived
     during the search *)
  Definition shows (all : list (W * Q)) (at_start : nat) p : Prop :=
    at_start <= p_seen p <= p_now p /\ p_now p <= length all /\
    exists i, latest (firstn (p_seen p) (times all)) (p_time p) i /\
      nth_error (worlds all) (i + (p_now p - p_seen p)) = Some (p_world p).

  (* --- proofs --- *)
  Variable all : list (W * Q).
  Variable nb k0 : nat.
  Hypothesis Hnb : nb <= length all.
  Hypothesis Hk0 : k0 < nb.
  Variable tk0 : Q.
  Hypothesis Htk : nth_error (times all) k0 = Some tk0.
  Hypothesis Htk0 : (tk0 <= 0)%Q.
  Definition clock (k : nat) : Q := (inject_Z (Z.of_nat k) * (3 # 100))%Q.
  Definition queue s : Prop := exists n m, nb <= n /\ m <= length all /\ t_times s = firstn n (times all) /\ t_worlds s = firstn m (worlds all) /\
    (m = n /\ t_todo s = program (draws (skipn n all)) \/
     m = S n /\ exists w t, nth_error all n = Some (w, t) /\ t_todo s = AppendTime t :: program (draws (skipn (S n) all))).
  Definition place s : Prop :=
    match t_pc s with
    | PCheck | PIter => (t_render s == clock (length (t_drawn s)))%Q
    | PScan seen pos idx => (t_render s == clock (length (t_drawn s)))%Q /\ pos + idx = seen /\ nb <= seen <= length (t_times s) /\
        forall j t, pos <= j < seen -> nth_error (times all) j = Some t -> (t_render s < t)%Q
    | PLen seen idx => (t_render s == clock (length (t_drawn s)))%Q /\ idx < seen /\ nb <= seen <= length (t_times s) /\
        latest (firstn seen (times all)) (t_render s) (seen - 1 - idx)
    | PGet seen now j => (t_render s == clock (length (t_drawn s)))%Q /\ nb <= seen <= now /\ now <= length (t_times s) /\
        exists i, j = Z.of_nat (i + (now - seen)) /\ i < seen /\ latest (firstn seen (times all)) (t_render s) i
    | PDraw seen now w => (t_render s == clock (length (t_drawn s)))%Q /\ nb <= seen <= now /\ now <= length (t_times s) /\
        exists i, latest (firstn seen (times all)) (t_render s) i /\ nth_error (worlds all) (i + (now - seen)) = Some w
    | PLoad => exists k, length (t_drawn s) = S k /\ (t_render s == clock k)%Q
    | PStore r => (r == clock (length (t_drawn s)))%Q
    | PCrash => False
    end.
  Definition pictures s : Prop := forall k p, nth_error (t_drawn s) k = Some p -> (p_time p == clock k)%Q /\ shows all nb p.
  Definition good s : Prop := queue s /\ place s /\ pictures s.

  Lemma clock_pos k : (0 <= clock k)%Q.
  Proof.
    unfold clock. assert (0 <= inject_Z (Z.of_nat k))%Q by (unfold Qle, inject_Z; cbn; lia). lra.
  Qed.
  Lemma clock_S k : (clock (S k) == clock k + (3 # 100))%Q.
  Proof. unfold clock. rewrite Nat2Z.inj_succ, <- Z.add_1_l, inject_Z_plus. change (inject_Z 1) with 1%Q. lra. Qed.
  Lemma times_len : length (times all) = length all. Proof. apply map_length. Qed.
  Lemma worlds_len : length (worlds all) = length all. Proof. apply map_length. Qed.
  Lemma queue_times s : queue s -> nb <= length (t_times s) <= length all /\ length (t_times s) <= length (t_worlds s) /\
    t_times s = firstn (length (t_times s)) (times all) /\ t_worlds s = firstn (length (t_worlds s)) (worlds all).
  Proof.
    intros (n & m & N & M & Et & Ew & H). rewrite Et, Ew, !firstn_length, times_len, worlds_len.
    assert (n <= m) by (destruct H as [(-> & _)|(-> & _)]; lia). rewrite !Nat.min_l by lia. repeat split; auto; lia.
  Qed.
  Lemma firstn_snoc {A} n (l : list A) x : nth_error l n = Some x -> firstn n l ++ [x] = firstn (S n) l.
  Proof.
    revert n. induction l as [|y l IH]; intros [|n] E; cbn in E; try discriminate.
    - inversion E; subst. reflexivity.
    - cbn [firstn app]. now rewrite (IH n E).
  Qed.
  Lemma skipn_cons {A} n (l : list A) x : nth_error l n = Some x -> skipn n l = x :: skipn (S n) l.
  Proof.
    revert n. induction l as [|y l IH]; intros [|n] E; cbn in E; try discriminate.
    - inversion E; subst. reflexivity.
    - cbn [skipn]. apply (IH n E).
  Qed.
  Lemma nth_firstn {A} n (l : list A) j x : nth_error (firstn n l) j = Some x <-> j < n /\ nth_error l j = Some x.
  Proof.
    revert n j. induction l as [|y l IH]; intros [|n] j; cbn.
    - destruct j; split; try discriminate; intros (_ & X); discriminate.
    - destruct j; split; try discriminate; intros (_ & X); discriminate.
    - destruct j; split; try discriminate; intros (X & _); lia.
    - destruct j; cbn; [split; [intros; split; [lia|auto]|tauto]|]. rewrite IH. split; intros (A1 & A2); split; auto; lia.
  Qed.

  Lemma simulate_queue s : queue s -> queue (simulate s) /\ t_render (simulate s) = t_render s /\ t_pc (simulate s) = t_pc s /\
    t_drawn (simulate s) = t_drawn s /\ length (t_times s) <= length (t_times (simulate s)).
  Proof.
    intros Q. pose proof Q as (n & m & N & M & Et & Ew & H). unfold simulate. destruct H as [(-> & E)|(-> & w & t & Nt & E)]; rewrite E.
    - destruct (nth_error all n) as [[w t]|] eqn:Nt.
      + rewrite (skipn_cons _ _ _ Nt). cbn [draws map program flat_map accesses app fst snd].
        cbn [t_render t_pc t_drawn t_times]. split; [|auto]. exists n, (S n). cbn [t_times t_worlds t_todo].
        split; auto. assert (n < length all) by (apply nth_error_Some; congruence). split; [lia|]. split; auto. split.
        * rewrite Ew. apply firstn_snoc. unfold worlds. rewrite nth_error_map, Nt. reflexivity.
        * right. split; auto. exists w, t. split; auto.
      + apply nth_error_None in Nt. rewrite (skipn_all2 all Nt). cbn [draws map program flat_map]. auto.
    - cbn [t_render t_pc t_drawn t_times]. split; [|rewrite app_length; cbn; repeat split; lia]. exists (S n), (S n). cbn [t_times t_worlds t_todo].
      split; [lia|]. split; auto. split; [rewrite Et; apply firstn_snoc; unfold times; rewrite nth_error_map, Nt; reflexivity|].
      split; auto.
  Qed.
  Lemma simulate_good s : good s -> good (simulate s).
  Proof.
    intros (Q & P & D). destruct (simulate_queue s Q) as (Q' & Er & Ep & Ed & L). split; auto. split.
    - unfold place in *. rewrite Er, Ep, Ed. destruct (t_pc s); auto.
      + destruct P as (A & B & C & E). repeat split; auto; lia.
      + destruct P as (A & B & C & E). repeat split; auto; try lia; apply E.
      + destruct P as (A & B & C & E). repeat split; auto; try lia.
      + destruct P as (A & B & C & E). repeat split; auto; try lia.
    - unfold pictures. rewrite Ed. exact D.
  Qed.
  Lemma goto_queue s (c : pc W) : queue s -> queue (goto s c).
  Proof. intros H. exact H. Qed.
  Lemma Qle_bool_false a b : Qle_bool a b = false -> (b < a)%Q.
  Proof. intros H. apply Qnot_le_lt. intros L. apply Qle_bool_iff in L. congruence. Qed.
  Lemma draw_good s : good s -> good (draw s).
  Proof.
    intros (Q & P & D). destruct (queue_times s Q) as ((L1 & L2) & L3 & Et & Ew). unfold place in P. unfold draw. destruct (t_pc s) as [| |seen pos idx|seen idx|seen now j|seen now w| |r|] eqn:Pc.
    - destruct (t_worlds s) eqn:E; [split; auto; split; auto; unfold place; rewrite Pc; auto|].
      split; [now apply goto_queue|]. split; auto.
    - split; [now apply goto_queue|]. split; auto. unfold place, goto. cbn [t_pc t_render t_drawn t_times].
      split; auto. split; [lia|]. split; [lia|]. intros j t J. lia.
    - destruct P as (A & B & C & E).
      assert (Kp : k0 < pos).
      { destruct (lt_dec k0 pos); auto. exfalso. assert (X : (t_render s < tk0)%Q) by (apply (E k0 tk0); [lia|exact Htk]).
        pose proof (clock_pos (length (t_drawn s))). rewrite <- A in H. lra. }
      destruct pos as [|q]; [lia|].
      destruct (nth_error (t_times s) q) as [t|] eqn:N; [|apply nth_error_None in N; lia].
      assert (Nq : nth_error (times all) q = Some t) by (rewrite Et in N; apply nth_firstn in N; tauto).
      destruct (Qle_bool t (t_render s)) eqn:Lt.
      + apply Qle_bool_iff in Lt. split; [now apply goto_queue|]. split; auto. unfold place, goto. cbn [t_pc t_render t_drawn t_times].
        split; auto. split; [lia|]. split; [lia|]. replace (seen - 1 - idx) with q by lia. split.
        * exists t. split; auto. apply nth_firstn. split; [lia|auto].
        * intros j t' J N'. apply nth_firstn in N' as (J' & N'). apply (E j t'); [lia|exact N'].
      + apply Qle_bool_false in Lt. split; [now apply goto_queue|]. split; auto. unfold place, goto. cbn [t_pc t_render t_drawn t_times].
        split; auto. split; [lia|]. split; [lia|]. intros j t' J N'. destruct (Nat.eq_dec j q) as [->|Ne]; [congruence|]. apply (E j t'); [lia|exact N'].
    - destruct P as (A & B & C & E). split; [now apply goto_queue|]. split; auto. unfold place, goto. cbn [t_pc t_render t_drawn t_times].
      split; auto. split; [lia|]. split; [lia|]. exists (seen - 1 - idx). split; [lia|]. split; [lia|auto].
    - destruct P as (A & B & C & i & -> & Li & E). unfold at_index. destruct (Z.leb_spec 0 (Z.of_nat (i + (now - seen)))); [|lia].
      rewrite Nat2Z.id. assert (Li2 : i + (now - seen) < length (t_worlds s)) by lia.
      destruct (nth_error (t_worlds s) (i + (now - seen))) as [w|] eqn:N; [|apply nth_error_None in N; lia].
      split; [now apply goto_queue|]. split; auto. unfold place, goto. cbn [t_pc t_render t_drawn t_times].
      split; auto. split; [lia|]. split; [lia|]. exists i. split; auto. rewrite Ew in N. apply nth_firstn in N. tauto.
    - destruct P as (A & B & C & i & E & N). split; [exact Q|]. split.
      + unfold place. cbn [t_pc t_render t_drawn]. rewrite app_length. cbn [length]. exists (length (t_drawn s)). split; [lia|auto].
      + intros k p. cbn [t_drawn]. intros X. destruct (lt_eq_lt_dec k (length (t_drawn s))) as [[Lk|Lk]|Lk].
        * rewrite nth_error_app1 in X by lia. now apply D.
        * rewrite Lk in X |- *. rewrite nth_error_app2, Nat.sub_diag in X by lia. inversion X; subst p. cbn [p_time]. split; auto.
          unfold shows. cbn [p_seen p_now p_time p_world]. split; [lia|]. split; [lia|]. exists i. auto.
        * (assert (Y : nth_error (t_drawn s ++ [mkPic w (t_render s) seen now]) k <> None) by congruence;
            apply nth_error_Some in Y; rewrite app_length in Y; cbn in Y; lia).
    - destruct P as (k & E & A). split; [now apply goto_queue|]. split; auto. unfold place, goto. cbn [t_pc t_render t_drawn].
      rewrite E, clock_S, A. reflexivity.
    - split; [exact Q|]. split; auto.
    - contradiction.
  Qed.
  Lemma move_good s t : good s -> good (move s t).
  Proof. destruct t; [apply simulate_good|apply draw_good]. Qed.
  Lemma run_good sched : forall s, good s -> good (run s sched).
  Proof. induction sched as [|t l IH]; intros s G; cbn; auto. apply IH. now apply move_good. Qed.

  (* the drawing thread is never stuck *)
  Lemma run_app s a b : run s (a ++ b) = run (run s a) b. Proof. apply fold_left_app. Qed.
  Definition soon s : Prop := exists n, length (t_drawn (run s (repeat Drawing n))) = S (length (t_drawn s)).
  Lemma soon_step s : t_drawn (draw s) = t_drawn s -> soon (draw s) -> soon s.
  Proof. intros E (n & H). exists (S n). cbn [repeat]. unfold run in *. cbn [fold_left move]. rewrite H. now rewrite E. Qed.
  Lemma soon_draw s seen now w : t_pc s = PDraw seen now w -> soon s.
  Proof. intros E. exists 1. cbn. unfold draw. rewrite E. cbn [t_drawn]. rewrite app_length. cbn. lia. Qed.
  Lemma soon_get s seen now j : good s -> t_pc s = PGet seen now j -> soon s.
  Proof.
    intros G E. pose proof (draw_good s G) as (_ & P' & _). assert (Ed : t_drawn (draw s) = t_drawn s).
    { unfold draw. rewrite E. destruct (at_index (t_worlds s) j); reflexivity. }
    apply soon_step; auto. unfold place in P'. unfold draw in P' |- *. rewrite E in *. destruct (at_index (t_worlds s) j) as [w|].
    - now apply (soon_draw _ seen now w).
    - contradiction.
  Qed.
  Lemma soon_len s seen idx : good s -> t_pc s = PLen seen idx -> soon s.
  Proof.
    intros G E. assert (Ed : t_drawn (draw s) = t_drawn s) by (unfold draw; rewrite E; reflexivity).
    apply soon_step; auto. eapply soon_get; [now apply draw_good|]. unfold draw. rewrite E. reflexivity.
  Qed.
  Lemma soon_scan pos : forall s seen idx, good s -> t_pc s = PScan seen pos idx -> soon s.
  Proof.
    induction pos as [|q IH]; intros s seen idx G E; pose proof (draw_good s G) as G'; pose proof G' as (_ & P' & _);
      unfold place in P'; unfold draw in P'; rewrite E in P'; [contradiction|].
    destruct (nth_error (t_times s) q) as [t|] eqn:N; [|contradiction]. destruct (Qle_bool t (t_render s)) eqn:L.
    - assert (X : t_pc (draw s) = PLen seen idx) by (unfold draw; rewrite E, N, L; reflexivity).
      apply soon_step; [unfold draw; rewrite E, N, L; reflexivity|]. now apply (soon_len _ seen idx).
    - assert (X : t_pc (draw s) = PScan seen q (S idx)) by (unfold draw; rewrite E, N, L; reflexivity).
      apply soon_step; [unfold draw; rewrite E, N, L; reflexivity|]. now apply (IH _ seen (S idx)).
  Qed.
  Lemma soon_iter s : good s -> t_pc s = PIter -> soon s.
  Proof.
    intros G E. apply soon_step; [unfold draw; rewrite E; reflexivity|]. eapply soon_scan; [now apply draw_good|]. unfold draw. rewrite E. reflexivity.
  Qed.
  Lemma soon_check s : good s -> t_pc s = PCheck -> soon s.
  Proof.
    intros G E. pose proof G as (Q & _). destruct (queue_times s Q) as ((L1 & L2) & L3 & _).
    assert (X : draw s = goto s PIter) by (unfold draw; rewrite E; destruct (t_worlds s) eqn:Ew; [cbn in L3; lia|reflexivity]).
    apply soon_step; [rewrite X; reflexivity|]. apply soon_iter; [now apply draw_good|]. rewrite X. reflexivity.
  Qed.
  Lemma always_soon s : good s -> soon s.
  Proof.
    intros G. destruct (t_pc s) as [| |seen pos idx|seen idx|seen now j|seen now w| |r|] eqn:E.
    - now apply soon_check.
    - now apply soon_iter.
    - now apply (soon_scan pos _ seen idx).
    - now apply (soon_len _ seen idx).
    - now apply (soon_get _ seen now j).
    - now apply (soon_draw _ seen now w).
    - apply soon_step; [unfold draw; rewrite E; reflexivity|]. assert (X : t_pc (draw s) = PStore (t_render s + render_step)) by (unfold draw; rewrite E; reflexivity).
      apply soon_step; [unfold draw at 1; rewrite X; reflexivity|]. apply soon_check; [now do 2 apply draw_good|]. unfold draw at 1. rewrite X. reflexivity.
    - apply soon_step; [unfold draw; rewrite E; reflexivity|]. apply soon_check; [now apply draw_good|]. unfold draw. rewrite E. reflexivity.
    - destruct G as (_ & P & _). unfold place in P. rewrite E in P. contradiction.
  Qed.
End Threaded.

Section Start.
  Context {W : Type}.
  Implicit Types (before after : list (W * Q)).
  Lemma run_before before : forall ws ts rt rest p d,
    run (mkT ws ts rt (program (draws before) ++ rest) p d) (repeat Simulating (length (program (draws before)))) =
    mkT (ws ++ worlds before) (ts ++ times before) rt rest p d.
  Proof.
    induction before as [|[w t] l IH]; intros.
    - cbn. now rewrite !app_nil_r.
    - cbn [draws map program flat_map accesses app fst snd length repeat]. unfold run. cbn [fold_left move simulate t_todo t_worlds t_times t_render t_pc t_drawn].
      fold (draws l). fold (@program W (draws l)). fold (@run W). unfold run in IH. rewrite IH. cbn [worlds times map fst snd].
      unfold worlds, times. now rewrite <- !app_assoc.
  Qed.
  Lemma start_good before after k0 t0 : nth_error (times before) k0 = Some t0 -> (t0 <= 0)%Q ->
    good (before ++ after) (length before) (start (draws before) (draws after)).
  Proof.
    intros N L. unfold start. rewrite run_before. cbn [app].
    assert (X : length (times before) = length before) by apply map_length. assert (Y : length (worlds before) = length before) by apply map_length.
    split; [|split].
    - exists (length before), (length before). cbn [t_times t_worlds t_todo]. rewrite app_length. split; [lia|]. split; [lia|].
      unfold times, worlds in *. rewrite !map_app. split; [rewrite <- X at 1; now rewrite firstn_app, firstn_all, Nat.sub_diag, app_nil_r|].
      split; [rewrite <- Y at 1; now rewrite firstn_app, firstn_all, Nat.sub_diag, app_nil_r|].
      left. split; auto. now rewrite skipn_app, skipn_all, Nat.sub_diag.
    - unfold place. cbn [t_pc t_render t_drawn length]. reflexivity.
    - intros [|k] p; discriminate.
  Qed.
  Lemma k0_lt before k0 t0 : nth_error (times before) k0 = Some t0 -> k0 < length before.
  Proof.
    intros N. assert (X : nth_error (times before) k0 <> None) by congruence. apply nth_error_Some in X. unfold times in X. now rewrite map_length in X.
  Qed.
  Lemma k0_all before after k0 t0 : nth_error (times before) k0 = Some t0 -> nth_error (times (before ++ after)) k0 = Some t0.
  Proof.
    intros N. pose proof (k0_lt before k0 t0 N). unfold times in *. rewrite map_app, nth_error_app1; auto. now rewrite map_length.
  Qed.

  (* if a world of time 0 or earlier was drawn before the thread starts and nobody resets, no schedule makes the thread
     fail; picture k is drawn at render time 0.03 k and shows what it should; a next picture always comes *)
  Theorem C106_every_schedule before after t0 sched : In t0 (times before) -> (t0 <= 0)%Q ->
    let s := run (start (draws before) (draws after)) sched in
    t_pc s <> PCrash /\
    (forall k p, nth_error (t_drawn s) k = Some p ->
       (p_time p == inject_Z (Z.of_nat k) * (3 # 100))%Q /\ shows (before ++ after) (length before) p) /\
    exists n, length (t_drawn (run s (repeat Drawing n))) = S (length (t_drawn s)).
  Proof.
    intros I L s. apply In_nth_error in I as (k0 & N).
    pose proof (k0_lt before k0 t0 N) as K. pose proof (k0_all before after k0 t0 N) as Na.
    assert (Hnb : length before <= length (before ++ after)) by (rewrite app_length; lia).
    assert (G : good (before ++ after) (length before) s).
    { apply (run_good _ _ k0) with (tk0 := t0); auto. now apply (start_good before after k0 t0). }
    split; [|split].
    - destruct G as (_ & P & _). unfold place in P. intros E. rewrite E in P. exact P.
    - destruct G as (_ & _ & D). exact D.
    - apply (always_soon (before ++ after) (length before) k0) with (tk0 := t0); auto.
  Qed.
  (* all worlds drawn before the thread starts: every picture shows the latest world of its time *)
  Theorem C106_replay before t0 sched k p : In t0 (times before) -> (t0 <= 0)%Q ->
    nth_error (t_drawn (run (start (draws before) []) sched)) k = Some p ->
    exists i, latest (times before) (inject_Z (Z.of_nat k) * (3 # 100)) i /\ nth_error (worlds before) i = Some (p_world p).
  Proof.
    intros I L N. destruct (C106_every_schedule before [] t0 sched I L) as (_ & H & _). specialize (H k p N).
    rewrite app_nil_r in H. destruct H as (T & (S1 & S2) & S3 & i & La & Nw). exists i.
    assert (p_seen p = length before) by lia. assert (p_now p = length before) by lia. rewrite H, H0, Nat.sub_diag, Nat.add_0_r in *.
    split; auto. rewrite firstn_all2 in La by (unfold times; rewrite map_length; lia). destruct La as ((t & N1 & N2) & N3). split.
    - exists t. split; auto. now rewrite <- T.
    - intros j t' J Nj. rewrite <- T. eauto.
  Qed.
  (* started before any world is drawn, the thread waits *)
  Theorem C106_waits after n : let s := start (draws (W := W) []) (draws after) in run s (repeat Drawing n) = s.
  Proof. intros s. induction n as [|n IH]; [reflexivity|]. exact IH. Qed.
  (* the index of the latest world is unique, so C106 determines the pictures *)
  Theorem C106_latest_is_unique ts r i j : latest ts r i -> latest ts r j -> i = j.
  Proof.
    intros ((t & N & L) & A) ((t' & N' & L') & B). destruct (lt_eq_lt_dec i j) as [[X|X]|X]; auto.
    - specialize (A j t' X N'). lra.
    - specialize (B i t X N). lra.
  Qed.
End Start.

(* --- examples --- *)
Definition D (n : nat) : list thread := repeat Drawing n.
Definition S2 : list thread := [Simulating; Simulating].
Example C106_nonvacuous : map (fun p => (p_world p, p_seen p, p_now p))
    (t_drawn (run (start (draws [(1%Z, 0%Q)]) (draws [(2%Z, 4 # 100); (3%Z, 5 # 100)]%Q)) (D 8 ++ S2 ++ D 9 ++ S2 ++ D 8))) =
  [(1%Z, 1, 1); (1%Z, 2, 2); (3%Z, 3, 3)].
Proof. vm_compute. reflexivity. Qed.
Example C106_nonvacuous_replay : map (fun p => p_world p)
    (t_drawn (run (start (draws [(1%Z, 0%Q); (2%Z, 3 # 100); (3%Z, 5 # 100)]%Q) []) (D 40))) = [1%Z; 2%Z; 3%Z; 3%Z].
Proof. vm_compute. reflexivity. Qed.
(* a picture never shows a world later than its render time: false, a world that arrives during the search is taken; and
   the next picture goes back *)
Theorem C106_never_a_later_world_refuted :
  map (fun p => p_world p) (t_drawn (run (start (draws [(1%Z, 0%Q)]) (draws [(2%Z, 5%Q)])) (D 3 ++ S2 ++ D 20))) = [2%Z; 1%Z].
Proof. vm_compute. reflexivity. Qed.
(* the thread survives being started before the first world is drawn, a first world of a later time, a reset: false *)
Theorem C106_never_fails_refuted :
  t_pc (run (start (draws []) (draws [(1%Z, 0%Q)])) ([Simulating] ++ D 3)) = PCrash /\
  t_pc (run (start (draws [(1%Z, 2 # 10)%Q]) []) (D 4)) = PCrash /\
  t_pc (run (start (draws [(1%Z, 0%Q)]) [Reset; DrawWorld 1%Z 0%Q]) (D 2 ++ S2 ++ D 1)) = PCrash.
Proof. vm_compute. auto. Qed.

Print Assumptions C106_every_schedule.
Print Assumptions C106_replay.
Print Assumptions C106_waits.
Print Assumptions C106_latest_is_unique.
Print Assumptions C106_never_a_later_world_refuted.
Print Assumptions C106_never_fails_refuted.
