(* C11 ExecutionModelInterpolate, C12 BehaviorStaticTrajectory. *)
From Coq Require Import List NArith ZArith QArith Qabs Bool Arith Lia Sorted Lqa.
From Verif Require Import Model_World Model_Traj Spec_Traj Proof_Traj.
Import ListNotations.

(* C11: once INVALID, always INVALID, and the executed state is frozen - whatever is executed later. *)
Theorem C11_invalid_is_permanent :
  forall (e : exec_model) (l : list (Q * traj)), em_status e = E_INVALID ->
  exists e', executes e l = Some e' /\ em_status e' = E_INVALID /\ em_state e' = em_state e.
Proof. intros e l H; exact (executes_invalid l e H). Qed.
Print Assumptions C11_invalid_is_permanent.

(* C11: a query more than 1 ms outside the covered time range makes the model INVALID, keeping the old state. *)
Theorem C11_outside_becomes_invalid :
  forall (e : exec_model) (t : Q) (tr : traj) f l,
  hd_error tr = Some f -> last_opt tr = Some l ->
  t + (1 # 1000) < time f \/ time l < t - (1 # 1000) ->
  exists e', execute_interp e t tr = Some e' /\ em_status e' = E_INVALID /\ em_state e' = em_state e.
Proof.
  intros e t tr f l Hf Hl Hout. unfold execute_interp. destruct (em_status e) eqn:Es; [eexists; split; [reflexivity|]; split; reflexivity|].
  rewrite (proj2 (proj2 (within_iff tr t f l Hf Hl)) Hout). eauto.
Qed.
Print Assumptions C11_outside_becomes_invalid.

(* C11: on an equally spaced trajectory a query within 1 ms of a row returns exactly that row. *)
Theorem C11_row_hit_uniform :
  forall (e : exec_model) (t : Q) (tr : traj) (t0 h : Q) i r,
  em_status e = E_VALID -> uniform tr t0 h -> 2 # 1000 <= h ->
  nth_error tr i = Some r -> Qabs (time r - t) < 1 # 1000 ->
  execute_interp e t tr = Some (mkEM E_VALID r tr).
Proof.
  intros e t tr t0 h i r He Hu Hh Hi Hhit. unfold execute_interp. rewrite He.
  assert (Hpos : 0 < h) by lra.
  pose proof (uniform_increasing tr t0 h Hu Hpos) as Hs.
  assert (Hx : hits t r = true) by (apply Qlt_bool_iff; exact Hhit).
  assert (Hd : 2 * delta <= h) by (unfold delta; lra).
  pose proof (uniform_searched tr t0 h t i r Hu Hd Hi Hx) as Hsr.
  pose proof Hsr as (f & l & Hf & Hl & _).
  assert (Hw : within_traj tr t = Some true).
  { apply (proj1 (within_iff tr t f l Hf Hl)). apply hits_iff in Hx.
    assert (Hf0 : nth_error tr 0 = Some f) by (destruct tr; [discriminate|exact Hf]).
    assert (time f <= time r).
    { destruct i as [|i]; [rewrite Hf0 in Hi; injection Hi as ->; lra|].
      apply Qlt_le_weak. eapply (sorted_nth tr 0 (S i)); [exact Hs|lia|exact Hf0|exact Hi]. }
    assert (time r <= time l).
    { pose proof (last_opt_nth _ _ Hl) as Hl0. assert (i < length tr)%nat by (apply nth_error_Some; congruence).
      destruct (Nat.eq_dec i (length tr - 1)) as [->|Hne]; [rewrite Hl0 in Hi; injection Hi as ->; lra|].
      apply Qlt_le_weak. eapply (sorted_nth tr i (length tr - 1)); [exact Hs|lia|exact Hi|exact Hl0]. }
    lra. }
  rewrite Hw. rewrite (exact_found tr t i r Hi Hx); [reflexivity| |exact Hsr].
  intros r' Hin Hx'. eapply (hit_unique tr t i r r' Hs); eauto.
  intros j a b Ha Hb. rewrite (Hu j a Ha), (Hu (S j) b Hb). rewrite Nat2Z.inj_succ. unfold Z.succ.
  rewrite inject_Z_plus. change (inject_Z 1) with 1. unfold delta in *. lra.
Qed.
Print Assumptions C11_row_hit_uniform.

(* C11, what holds for every increasing trajectory of at least two rows: Execute never fails, and if it
   leaves the model VALID the executed state is a row of the trajectory within 1 ms of the query, or
   the point at the query time on the line through the FIRST TWO rows. *)
Theorem C11_result_form :
  forall (e : exec_model) (t : Q) (r0 r1 : state) (rest : traj) n,
  let tr := r0 :: r1 :: rest in
  em_status e = E_VALID -> increasing tr -> rectangular n tr ->
  exists e', execute_interp e t tr = Some e' /\
    (em_status e' = E_VALID ->
       (In (em_state e') tr /\ Qabs (time (em_state e') - t) < 1 # 1000) \/
       (on_line r0 r1 t (em_state e') /\ time (em_state e') == t)).
Proof.
  intros e t r0 r1 rest n tr He Hs [Hn Hrect]. unfold execute_interp. rewrite He.
  destruct (last_opt_some tr) as [l Hl]; [discriminate|].
  destruct (within_traj tr t) as [[|]|] eqn:Ew.
  - destruct (exact_row tr t) as [s|] eqn:Ex.
    + exists (mkEM E_VALID s tr). split; [reflexivity|]. intros _. left. exact (exact_row_sound tr t s Ex).
    + unfold tr at 1. cbn [find_lower]. destruct (Qle_bool (time r0) t) eqn:E0.
      * apply Qle_bool_iff in E0. cbn [nth_error plus tr]. unfold tr. cbn [nth_error].
        assert (Hlt : time r0 < time r1).
        { inversion Hs as [|? ? _ HF]; subst. rewrite Forall_forall in HF. apply HF. now left. }
        assert (L0 : length r0 = n /\ length r1 = n).
        { inversion Hrect as [|? ? H1 H2]; subst. inversion H2; subst. auto. }
        destruct (interpolate r0 r1 t) as [s|] eqn:Ei.
        -- exists (mkEM E_VALID s (r0 :: r1 :: rest)). split; [reflexivity|]. intros _. right. cbn [em_state].
           assert (Hon : on_line r0 r1 t s) by exact (interpolate_on_line r0 r1 t s n (proj1 L0) (proj2 L0) Hlt E0 Ei).
           split; [exact Hon|]. apply (on_line_time r0 r1); [| |lra|exact Hon].
           ++ destruct r0; [cbn in L0; lia|discriminate].
           ++ destruct r1; [cbn in L0; lia|discriminate].
        -- unfold interpolate in Ei. rewrite (proj2 (Qeq_bool_false (time r1 - time r0) 0)) in Ei by lra. discriminate.
      * apply Qle_bool_false in E0.
        assert (Hnone : forall l' i, (forall r, In r l' -> t < time r) -> find_lower l' t i = None).
        { induction l' as [|r l' IH]; intros i Hr; cbn; [reflexivity|].
          rewrite (proj2 (Qle_bool_false (time r) t)) by (apply Hr; now left). apply IH. intros x Hx; apply Hr; now right. }
        inversion Hs as [|? ? _ HF]; subst. rewrite Forall_forall in HF.
        change (match r1 :: rest with [] => None | _ => find_lower (r1 :: rest) t 1 end) with (find_lower (r1 :: rest) t 1).
        assert (E1 : find_lower (r1 :: rest) t 1 = None).
        { apply Hnone. intros r Hr. specialize (HF r Hr). lra. }
        cbn [find_lower] in E1. rewrite E1.
        eexists. split; [reflexivity|]. cbn. discriminate.
  - eexists. split; [reflexivity|]. cbn. discriminate.
  - unfold within_traj in Ew. rewrite Hl in Ew. discriminate.
Qed.
Print Assumptions C11_result_form.

(* C11 partial: the interpolation claim in full is "between two consecutive rows the executed state is
   on the line through THOSE rows"; it holds in the first segment (in particular for two-row
   trajectories). *)
Theorem C11_interpolation_partial :
  forall (e : exec_model) (t : Q) (r0 r1 : state) (rest : traj) n,
  let tr := r0 :: r1 :: rest in
  em_status e = E_VALID -> increasing tr -> rectangular n tr -> time r0 <= t <= time r1 ->
  exists e', execute_interp e t tr = Some e' /\ em_status e' = E_VALID /\
    ((In (em_state e') tr /\ Qabs (time (em_state e') - t) < 1 # 1000) \/
     (on_line r0 r1 t (em_state e') /\ time (em_state e') == t)).
Proof.
  intros e t r0 r1 rest n tr He Hs Hr Ht. destruct (C11_result_form e t r0 r1 rest n He Hs Hr) as (e' & E & H).
  exists e'. split; [exact E|]. assert (Hv : em_status e' = E_VALID); [|auto].
  unfold execute_interp in E. rewrite He in E. fold tr in E.
  destruct (last_opt_some tr) as [l Hl]; [discriminate|].
  assert (Hw : within_traj tr t = Some true).
  { apply (proj1 (within_iff tr t r0 l eq_refl Hl)).
    assert (time r1 <= time l).
    { pose proof (last_opt_nth _ _ Hl) as Hl0.
      destruct (Nat.eq_dec (length tr - 1) 1) as [El|Hne]; [rewrite El in Hl0; cbn in Hl0; injection Hl0 as ->; lra|].
      apply Qlt_le_weak. eapply (sorted_nth tr 1 (length tr - 1)); [exact Hs| |reflexivity|exact Hl0].
      cbn in *; lia. }
    unfold delta. lra. }
  rewrite Hw in E. destruct (exact_row tr t); [now injection E as <-|].
  unfold tr in E. cbn [find_lower] in E. rewrite (proj2 (Qle_bool_iff (time r0) t)) in E by lra. cbn [nth_error plus] in E.
  destruct (interpolate r0 r1 t); [now injection E as <-|discriminate].
Qed.
Print Assumptions C11_interpolation_partial.

(* C11 refuted: in a later segment the rows 0 and 1 are used: the vehicle leaves the planned path, while
   the time stamp (which is all that is checked afterwards) is right. *)
Theorem C11_interpolates_bracketing_rows_refuted :
  exists (e : exec_model) (t : Q) (tr : traj) a b e',
    em_status e = E_VALID /\ increasing tr /\ rectangular 2 tr /\
    consecutive tr a b /\ time a < t < time b /\
    execute_interp e t tr = Some e' /\ em_status e' = E_VALID /\
    time (em_state e') == t /\ ~ on_line a b t (em_state e').
Proof.
  (* columns: time, x.  Accelerating from x=0: x(0)=0, x(1)=0, x(2)=10 *)
  exists (mkEM E_VALID [] []), (3#2), [[0;0]; [1;0]; [2;10]], [1;0], [2;10].
  eexists. split; [reflexivity|]. split.
  { repeat constructor; cbn; lra. }
  split; [split; [lia|repeat constructor]|]. split; [exists [[0;0]], []; reflexivity|].
  split; [split; reflexivity|]. split; [vm_compute; reflexivity|]. split; [reflexivity|]. split; [reflexivity|].
  intros [_ H]. destruct (H 1%nat 0 10 eq_refl eq_refl) as (z & Hz & E). vm_compute in Hz. injection Hz as <-.
  vm_compute in E. discriminate.
Qed.
Print Assumptions C11_interpolates_bracketing_rows_refuted.

(* C11 refuted without equal spacing: a query exactly at the time of a row need not return that row. *)
Theorem C11_row_hit_refuted :
  exists (e : exec_model) (t : Q) (tr : traj) r e',
    em_status e = E_VALID /\ increasing tr /\ In r tr /\ time r == t /\
    execute_interp e t tr = Some e' /\ em_status e' = E_VALID /\ em_state e' <> r /\
    nth 1 (em_state e') 0 - nth 1 r 0 == - (3#1).
Proof.
  (* rows at 0, 8, 9, 9.5, 9.75, 10 s; query at 9 s, row 2 is in the half that is not searched *)
  exists (mkEM E_VALID [] []), 9, [[0;0]; [8;0]; [9;3]; [19#2;4]; [39#4;4]; [10;4]], [9;3].
  eexists. split; [reflexivity|]. split; [repeat constructor; cbn; lra|]. split; [cbn; auto|].
  split; [reflexivity|]. split; [vm_compute; reflexivity|]. split; [reflexivity|]. split; [discriminate|].
  vm_compute. reflexivity.
Qed.
Print Assumptions C11_row_hit_refuted.

Example C11_nonvacuous :
  let tr := [[0;1]; [1#5;2]; [2#5;4]] in
  uniform tr 0 (1#5) /\ increasing tr /\ rectangular 2 tr /\
  (exists e', execute_interp (mkEM E_VALID [] []) (2#5) tr = Some e' /\ em_state e' = [2#5;4]) /\
  (exists e', execute_interp (mkEM E_VALID [] []) (1#10) tr = Some e' /\ nth 1 (em_state e') 0 == 3#2) /\
  (exists e', execute_interp (mkEM E_VALID [] []) 1 tr = Some e' /\ em_status e' = E_INVALID).
Proof.
  cbv zeta. split.
  { intros [|[|[|i]]] r H; cbn in H; try (injection H as <-; reflexivity). destruct i; discriminate. }
  split; [repeat constructor; cbn; lra|]. split; [split; [lia|repeat constructor]|].
  split; [eexists; split; vm_compute; reflexivity|]. split; eexists; split; vm_compute; reflexivity.
Qed.

(* C12: the status is a function of the recording's time range. *)
Theorem C12_status :
  forall (tr : traj) (t dt : Q), tr <> [] ->
  exists st, static_status tr t dt = Some st /\
    (st = NOT_STARTED_YET <-> forall r, In r tr -> t < time r) /\
    (st = EXPIRED <-> (exists r, In r tr /\ time r <= t) /\ forall r, In r tr -> time r <= t + dt) /\
    (st = VALID <-> (exists r, In r tr /\ time r <= t) /\ exists r, In r tr /\ t + dt < time r).
Proof.
  intros tr t dt Hne. destruct (min_max_spec tr Hne) as (mn & mx & E1 & E2 & (r1 & H1 & T1) & (r2 & H2 & T2) & Hb).
  unfold static_status. rewrite E1, E2. eexists. split; [reflexivity|].
  destruct (Qlt_bool t mn) eqn:Ea.
  - apply Qlt_bool_iff in Ea. split; [|split].
    + split; [intros _ r Hr; destruct (Hb r Hr); lra|reflexivity].
    + split; [discriminate|]. intros [(r & Hr & L) _]. destruct (Hb r Hr). exfalso; lra.
    + split; [discriminate|]. intros [(r & Hr & L) _]. destruct (Hb r Hr). exfalso; lra.
  - apply Qlt_bool_false in Ea. assert (Hst : exists r, In r tr /\ time r <= t) by (exists r1; split; [exact H1|lra]).
    destruct (Qle_bool mx (t + dt)) eqn:Eb.
    + apply Qle_bool_iff in Eb. split; [|split].
      * split; [discriminate|]. intros H. specialize (H r1 H1). exfalso; lra.
      * split; [intros _|reflexivity]. split; [exact Hst|]. intros r Hr. destruct (Hb r Hr). lra.
      * split; [discriminate|]. intros [_ (r & Hr & L)]. destruct (Hb r Hr). exfalso; lra.
    + apply Qle_bool_false in Eb. split; [|split].
      * split; [discriminate|]. intros H. specialize (H r1 H1). exfalso; lra.
      * split; [discriminate|]. intros [_ H]. specialize (H r2 H2). exfalso; lra.
      * split; [intros _|reflexivity]. split; [exact Hst|]. exists r2. split; [exact H2|lra].
Qed.
Print Assumptions C12_status.

(* C12: while VALID (positive horizon, increasing recording) the plan consists of the interpolated
   start, exactly the recorded rows strictly inside the horizon, in order, and the interpolated end. *)
Theorem C12_replay :
  forall (tr : traj) (t dt : Q) n, increasing tr -> rectangular n tr -> (2 <= length tr)%nat -> 0 < dt ->
  static_status tr t dt = Some VALID ->
  exists s0 s1 a b c d,
    static_plan tr t dt =
      Some (VALID, s0 :: filter (fun r => Qlt_bool t (time r) && Qlt_bool (time r) (t + dt)) tr ++ [s1]) /\
    consecutive tr a b /\ time a <= t <= time b /\ on_line a b t s0 /\ time s0 == t /\
    consecutive tr c d /\ time c <= t + dt <= time d /\ on_line c d (t + dt) s1 /\ time s1 == t + dt /\
    increasing (s0 :: filter (fun r => Qlt_bool t (time r) && Qlt_bool (time r) (t + dt)) tr ++ [s1]).
Proof.
  intros tr t dt n Hs Hr Hlen Hdt Hst.
  assert (Hne : tr <> []) by (destruct tr; [cbn in Hlen; lia|discriminate]).
  destruct (C12_status tr t dt Hne) as (st & Est & _ & _ & Hv). rewrite Hst in Est. injection Est as <-.
  destruct (proj1 Hv eq_refl) as [(ra & Hra & Ta) (rb & Hrb & Tb)].
  destruct tr as [|f rest] eqn:Etr; [congruence|]. rewrite <- Etr in *.
  destruct (last_opt_some tr) as [l Hl]; [congruence|].
  assert (Hf : hd_error tr = Some f) by (rewrite Etr; reflexivity).
  assert (Hfr : forall r, In r tr -> time f <= time r <= time l).
  { intros r Hin. apply In_nth_error in Hin as [i Hi]. pose proof (last_opt_nth _ _ Hl) as Hl0.
    assert (i < length tr)%nat by (apply nth_error_Some; congruence).
    assert (Hf0 : nth_error tr 0 = Some f) by (rewrite Etr; reflexivity). split.
    - destruct i as [|i]; [rewrite Hf0 in Hi; injection Hi as ->; lra|].
      apply Qlt_le_weak. eapply (sorted_nth tr 0 (S i)); [exact Hs|lia|exact Hf0|exact Hi].
    - destruct (Nat.eq_dec i (length tr - 1)) as [->|Hn']; [rewrite Hl0 in Hi; injection Hi as ->; lra|].
      apply Qlt_le_weak. eapply (sorted_nth tr i (length tr - 1)); [exact Hs|lia|exact Hi|exact Hl0]. }
  pose proof (Hfr ra Hra). pose proof (Hfr rb Hrb).
  destruct (interp_static_spec tr t n Hs Hr Hlen) as (a & b & s0 & i & j & Hc1 & Hab & Hon1 & E1 & Ej & _).
  { exists f, l. repeat split; auto; lra. }
  destruct (interp_static_spec tr (t + dt) n Hs Hr Hlen) as (c & d & s1 & i' & j' & Hc2 & Hcd & Hon2 & E2 & _ & Ei').
  { exists f, l. repeat split; auto; lra. }
  assert (Hpos : forall x, In x tr -> x <> []).
  { intros x Hx ->. destruct Hr as [Hn1 HF]. rewrite Forall_forall in HF. specialize (HF _ Hx). cbn in HF. lia. }
  assert (Hin : forall x y, consecutive tr x y -> In x tr /\ In y tr /\ time x < time y).
  { intros x y Hxy. pose proof (increasing_consecutive _ _ _ Hs Hxy). destruct Hxy as (l1 & l2 & ->).
    split; [|split; [|assumption]]; apply in_or_app; right; cbn; auto. }
  destruct (Hin _ _ Hc1) as (Ia & Ib & Lab). destruct (Hin _ _ Hc2) as (Ic & Id & Lcd).
  assert (T0 : time s0 == t) by (apply (on_line_time a b); [auto|auto|lra|exact Hon1]).
  assert (T1 : time s1 == t + dt) by (apply (on_line_time c d); [auto|auto|lra|exact Hon2]).
  destruct (firstn_skipn_cnt t (t + dt) tr Hs ltac:(lra)) as [Hblock Hcnt].
  exists s0, s1, a, b, c, d. split.
  { unfold static_plan. rewrite Hst, E1, E2, Ej, Ei'.
    assert (Hfc : (1 <= cnt_lt (t + dt) tr)%nat).
    { unfold cnt_lt. rewrite Etr. cbn [filter]. rewrite (proj2 (Qlt_bool_iff (time f) (t + dt))) by lra. cbn; lia. }
    destruct (Z.ltb_spec (Z.of_nat (cnt_le t tr)) 0); [lia|].
    destruct (Z.ltb_spec (Z.of_nat (cnt_lt (t + dt) tr) - 1) 0); [lia|]. cbn [orb].
    destruct (Z.ltb_spec (Z.of_nat (cnt_lt (t + dt) tr) - 1 - Z.of_nat (cnt_le t tr) + 1) 0); [lia|].
    do 4 f_equal. replace (Z.to_nat (Z.of_nat (cnt_lt (t + dt) tr) - 1 - Z.of_nat (cnt_le t tr) + 1))
      with (cnt_lt (t + dt) tr - cnt_le t tr)%nat by lia. rewrite Nat2Z.id. exact Hblock. }
  do 8 (split; [assumption|]).
  assert (Hsf : forall l, increasing l -> increasing (filter (fun r => Qlt_bool t (time r) && Qlt_bool (time r) (t + dt)) l)).
  { induction l0 as [|x l0 IH]; intros Hl0; cbn; [constructor|]. inversion Hl0 as [|? ? Hl1 Hl2]; subst.
    destruct (_ && _); [|exact (IH Hl1)]. constructor; [exact (IH Hl1)|]. apply Forall_forall. intros y Hy. apply filter_In in Hy as [Hy _].
    rewrite Forall_forall in *. auto. }
  specialize (Hsf tr Hs). set (F := filter _ tr) in *.
  assert (HF : forall x, In x F -> t < time x < t + dt).
  { intros x Hx. apply filter_In in Hx as [_ Hx]. apply andb_true_iff in Hx as [X Y]. apply Qlt_bool_iff in X, Y. auto. }
  clearbody F. constructor.
  - clear - Hsf HF T1. induction Hsf as [|x l0 Hl0 IH HFx]; cbn; [repeat constructor|].
    constructor; [apply IH; intros; apply HF; now right|]. apply Forall_app. split; [exact HFx|].
    repeat constructor. specialize (HF x (or_introl eq_refl)). lra.
  - apply Forall_app. split; [|repeat constructor; lra]. apply Forall_forall. intros x Hx. specialize (HF x Hx). lra.
Qed.
Print Assumptions C12_replay.

Example C12_nonvacuous :
  let tr := [[0;0]; [1;5]; [2;9]; [3;11]] in
  increasing tr /\ rectangular 2 tr /\ static_status tr (1#2) 2 = Some VALID /\
  (exists s0 s1, static_plan tr (1#2) 2 = Some (VALID, [s0; [1;5]; [2;9]; s1]) /\ nth 1 s0 0 == 5#2 /\ nth 1 s1 0 == 10) /\
  static_status tr (-1) 1 = Some NOT_STARTED_YET /\ static_status tr 2 1 = Some EXPIRED.
Proof.
  cbv zeta. split; [repeat constructor; cbn; lra|]. split; [split; [lia|repeat constructor]|].
  split; [reflexivity|]. split; [|split; reflexivity].
  eexists. eexists. split; [vm_compute; reflexivity|]. split; reflexivity.
Qed.
