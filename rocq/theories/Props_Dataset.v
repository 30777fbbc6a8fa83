(** C88: scenarios found by moving a window over recorded tracks. *)

From Coq Require Import String List Arith Lia Bool QArith ZArith.
Import ListNotations.
From Verif Require Import Model_Intersection Model_ScenGen Model_Dataset Spec_Dataset Proof_Dataset Proof_Window.
Local Open Scope Z_scope.
Local Open Scope list_scope.

Section C88.
Context {MS : Type}.
Variables (lanes_at : MS -> list nat) (inside : MS -> bool) (one : bool) (mins : list nat).
Variables (len skip_scen skip max_time min_time : Z) (load : list (list (track MS))).
Notation reader fuel idx st := (window_reader lanes_at inside fuel one mins len skip_scen skip max_time min_time load idx st).
Notation qual := (qualifies lanes_at inside one mins len).

(** Where the reader continues for scenario [idx]: all files and the file and time
    from which the window moves on. *)
Definition continues (idx : nat) (st : option (wstate MS)) (files : list (list (track MS))) (cur : nat) (t : Z) : Prop :=
  match idx, st with
  | O, _ => files = load /\ cur = O /\ t = min_time
  | Datatypes.S _, Some s => files = w_files s /\ cur = w_cur s /\ t = w_start s + skip_scen
  | Datatypes.S _, None => False
  end.

(** The i-th window looked at in file [f]. *)
Definition window (cur : nat) (t : Z) (f : nat) (i : Z) : Z := (if (f =? cur)%nat then t else min_time) + i * skip.

(** If the reader succeeds, it returns the first window, file by file, that satisfies
    the minimum numbers, and exactly the vehicles recorded during it that stand on one
    of the lanes. *)
Theorem C88_first_window fuel idx st ids st' : 0 < skip ->
  (exists p m, nth_error mins p = Some (Datatypes.S m)) ->
  reader fuel idx st = Done (ids, st') ->
  exists files cur t, continues idx st files cur t /\
   (Forall (fun d => NoDup (map t_id d)) files ->
    exists d j, w_files st' = files /\ (cur <= w_cur st')%nat /\ nth_error files (w_cur st') = Some d /\ 1 <= j /\
      w_start st' = window cur t (w_cur st') j /\ w_start st' + len <= max_time /\
      qual d (w_start st') /\ ids <> [] /\ NoDup ids /\
      (forall id, In id ids <-> usable lanes_at inside one mins len d (w_start st') id) /\
      forall f i d', nth_error files f = Some d' -> 1 <= i -> window cur t f i + len <= max_time ->
        ((cur <= f < w_cur st')%nat \/ (f = w_cur st' /\ i < j)) -> ~ qual d' (window cur t f i)).
Proof.
  intros Sk PM H. unfold window_reader in H.
  assert (X : exists s, (match idx with
         | O => Some (mkW min_time load 0)
         | Datatypes.S _ => match st with Some s => Some (mkW (w_start s + skip_scen) (w_files s) (w_cur s)) | None => None end
         end) = Some s /\ continues idx st (w_files s) (w_cur s) (w_start s)).
  { destruct idx as [|idx]; cbn.
    - eexists; split; [reflexivity|cbn; auto].
    - destruct st as [s|]; [|discriminate]. eexists; split; [reflexivity|cbn; auto]. }
  destruct X as (s & E & C). rewrite E in H. exists (w_files s), (w_cur s), (w_start s). split; [exact C|]. intros ND.
  destruct (search_files _ _ _ _ _ _ _ _ _ _ _ _) as [[[[ids0 w] cur']|]| |] eqn:Q; try discriminate. injection H as <- <-.
  assert (ND' : Forall (fun d => NoDup (map t_id d)) (skipn (w_cur s) (w_files s))).
  { apply Forall_forall. intros d Hd. rewrite Forall_forall in ND. apply ND.
    rewrite <- (firstn_skipn (w_cur s) (w_files s)). apply in_or_app. now right. }
  destruct (files_ok _ _ _ _ _ _ _ Sk _ _ _ _ _ _ _ _ ND' PM Q) as (d & j & A1 & A2 & A3 & A4 & A5 & A6 & A7 & A8 & A9 & A10).
  cbn [w_files w_cur w_start]. exists d, j. split; [reflexivity|]. split; [assumption|].
  assert (NS : forall f, (w_cur s <= f)%nat -> nth_error (skipn (w_cur s) (w_files s)) (f - w_cur s) = nth_error (w_files s) f).
  { intros f Hf. rewrite <- (firstn_skipn (w_cur s) (w_files s)) at 2.
    destruct (Nat.le_gt_cases (length (w_files s)) (w_cur s)) as [L|L].
    - rewrite skipn_all2 by lia. rewrite app_nil_r. transitivity (@None (list (track MS))).
      + destruct (f - w_cur s)%nat; reflexivity.
      + symmetry. apply nth_error_None. rewrite firstn_length. lia.
    - rewrite nth_error_app2 by (rewrite firstn_length; lia). rewrite firstn_length, Nat.min_l by lia. reflexivity. }
  split; [rewrite <- NS by assumption; exact A2|]. split; [assumption|]. split; [exact A4|].
  repeat (split; [assumption|]). intros f i d' F1 F2 F3 F4. apply (A10 f i d'); auto; try lia.
  rewrite NS by lia. exact F1.
Qed.

(** Otherwise it raises, never loops: with all states recorded that are asked for, it
    either succeeds or no window of the remaining files satisfies the numbers. *)
Theorem C88_terminates idx st files cur t : 0 < skip -> continues idx st files cur t ->
  (forall d j tr s, In d files -> (s = t \/ s = min_time) -> 1 <= j -> In tr d -> covers len tr (s + j * skip) ->
     init_state tr (s + j * skip) <> None) ->
  exists n, forall fuel, (n <= fuel)%nat ->
    (exists r, reader fuel idx st = Done r) \/
    (reader fuel idx st = Crash /\
     (Forall (fun d => NoDup (map t_id d)) files -> (exists p m, nth_error mins p = Some (Datatypes.S m)) ->
      forall f i d, (cur <= f)%nat -> nth_error files f = Some d -> 1 <= i -> window cur t f i + len <= max_time ->
        ~ qual d (window cur t f i))).
Proof.
  intros Sk C HI.
  exists (Datatypes.S (Z.to_nat (Z.max 0 (max_time - len - t + 1) + Z.max 0 (max_time - len - min_time + 1)))).
  intros fuel Hf. destruct fuel as [|fuel]; [lia|].
  unfold window_reader.
  assert (E : (match idx with
         | O => Some (mkW min_time load 0)
         | Datatypes.S _ => match st with Some s => Some (mkW (w_start s + skip_scen) (w_files s) (w_cur s)) | None => None end
         end) = Some (mkW t files cur)).
  { destruct idx as [|idx]; cbn in C.
    - destruct C as (-> & -> & ->). reflexivity.
    - destruct st as [s|]; [|destruct C]. destruct C as (-> & -> & ->). reflexivity. }
  rewrite E. cbn [w_files w_cur w_start].
  destruct (files_total lanes_at inside one mins len skip max_time Sk fuel min_time (skipn cur files) cur t) as (r & Q).
  - intros d j tr s D1 D2 D3 D4 D5. apply (HI d); auto. rewrite <- (firstn_skipn cur files). apply in_or_app. now right.
  - nia.
  - nia.
  - rewrite Q. destruct r as [[[ids w] cur']|]; [left; eauto|]. right. split; [reflexivity|]. intros ND PM f i d F1 F2 F3 F4.
    eapply (files_none _ _ _ _ _ _ _ Sk); [|exact PM|exact Q|exact F1| |exact F3|exact F4].
    + apply Forall_forall. intros d0 Hd. rewrite Forall_forall in ND. apply ND.
      rewrite <- (firstn_skipn cur files). apply in_or_app. now right.
    + rewrite <- F2. rewrite <- (firstn_skipn cur files) at 2.
      assert (f < length files)%nat by (apply nth_error_Some; congruence).
      rewrite nth_error_app2 by (rewrite firstn_length; lia). rewrite firstn_length, Nat.min_l by lia. reflexivity.
Qed.

(** With gapless recordings at 10 Hz and all times multiples of 100 ms no state is
    missing, and a vehicle starts where it was recorded at the start of the window. *)
Theorem C88_recorded (tr : track MS) t j : contiguous tr -> (exists a, t = 100 * a) -> (exists b, skip = 100 * b) ->
  0 <= len -> covers len tr (t + j * skip) ->
  exists ms, init_state tr (t + j * skip) = Some (t + j * skip, ms) /\ In (t + j * skip, ms) (t_states tr).
Proof.
  intros Ct (a & ->) (b & Eb) L [C1 C2]. apply contiguous_init; auto; [|lia].
  exists (a + j * b). rewrite Eb. lia.
Qed.

(** Successive scenarios move on: in the same file by at least SkipTimeScenarios +
    SkipTimeSearch, or to a later file; the file list stays. *)
Theorem C88_moves_on fuel idx st ids st' : 0 < skip -> reader fuel (Datatypes.S idx) (Some st) = Done (ids, st') ->
  Forall (fun d => NoDup (map t_id d)) (w_files st) -> (exists p m, nth_error mins p = Some (Datatypes.S m)) ->
  w_files st' = w_files st /\
  ((w_cur st < w_cur st')%nat \/ (w_cur st' = w_cur st /\ w_start st + skip_scen + skip <= w_start st')).
Proof.
  intros Sk H ND PM. destruct (C88_first_window _ _ _ _ _ Sk PM H) as (files & cur & t & (-> & -> & ->) & X).
  destruct (X ND) as (d & j & A1 & A2 & A3 & A4 & A5 & _). split; [assumption|].
  destruct (Nat.eq_dec (w_cur st') (w_cur st)) as [E|N]; [|left; lia].
  right. split; [assumption|]. rewrite A5. unfold window. rewrite E, Nat.eqb_refl. nia.
Qed.

(** The first scenario must be asked for first: without it the class variables are unset. *)
Theorem C88_fresh fuel idx : reader fuel (Datatypes.S idx) None = Crash.
Proof. reflexivity. Qed.

(** A search step of zero finds nothing in however many steps if the window does not qualify. *)
Theorem C88_stuck fuel (d : list (track MS)) ws : skip = 0 -> ws + len <= max_time -> NoDup (map t_id d) ->
  ~ qual d ws -> forall r, search lanes_at inside one mins len skip max_time fuel d ws <> Done r.
Proof.
  intros Z0 L ND N [ids w] H. destruct (search_ok _ _ _ _ _ _ _ _ _ _ _ _ ND H) as (k & K1 & K2 & K3 & K4).
  rewrite Z0, Z.mul_0_r, Z.add_0_r in K2. subst w. destruct K4 as [[K4 _]|(_ & K4 & _)]; [lia|auto].
Qed.
End C88.

(** The recorded state a track is entered with: at the asked time, or, if the track has not
    started by then, its first one. *)
Theorem C88_initial_state : forall (MS : Type) (tr : track MS) start t x, init_state tr start = Some (t, x) ->
  In (t, x) (t_states tr) /\
  ((exists y, In y (t_states tr) /\ fst y <= start) -> t = start) /\
  ((forall y, In y (t_states tr) -> start < fst y) -> forall y, In y (t_states tr) -> t <= fst y).
Proof.
  intros MS tr start t x H. unfold init_state in H.
  destruct (t_states tr) as [|z l] eqn:E; [discriminate|]. rewrite <- E in *.
  destruct (min_key_in (t_states tr)) as (m & ms & M1 & M2 & M3); [rewrite E; discriminate|]. rewrite M1 in H. cbv zeta in H.
  unfold lookup_state in H. destruct (find _ (t_states tr)) as [[t' x']|] eqn:F; [|discriminate]. apply find_some in F as [F1 F2]. cbn [fst snd] in *.
  apply Z.eqb_eq in F2. assert (Et : t = t') by congruence. assert (x = x') by congruence. subst t x. subst t'. split; [exact F1|]. split.
  - intros (y & I & L). destruct y as [ty y]. specialize (M3 _ _ I). cbn [fst] in *. destruct (start <? m) eqn:C; [apply Z.ltb_lt in C; lia|reflexivity].
  - intros A [ty y] I. specialize (M3 _ _ I). cbn [fst]. pose proof (A _ M2) as B. cbn [fst] in B. destruct (start <? m) eqn:C; [lia|apply Z.ltb_ge in C; lia].
Qed.
Print Assumptions C88_initial_state.

Definition ex_track (id first : Z) (l : list nat) : track nat :=
  mkTrack id (100 * first) (100 * (first + Z.of_nat (length l) - 1))
    (combine (map (fun k => 100 * (first + Z.of_nat k)) (seq 0 (length l))) l) "car" 4.

(** The window at MinTime itself is never looked at. *)
Theorem C88_first_window_skipped_refuted : exists d : list (track nat),
  qualifies (fun p => [p]) (fun _ => true) true [1%nat] 200 d 0 /\
  forall fuel, window_reader (fun p => [p]) (fun _ => true) fuel true [1%nat] 200 0 100 100000 0 [d] 0 None = Crash \/
               window_reader (fun p => [p]) (fun _ => true) fuel true [1%nat] 200 0 100 100000 0 [d] 0 None = OutOfFuel.
Proof.
  exists [ex_track 7 0 [0; 0; 0]%nat]. split.
  - split; [exists (ex_track 7 0 [0; 0; 0]%nat); split; [now left|unfold covers; cbn; lia]|].
    intros [|p] m Hm; [|destruct p; discriminate]. injection Hm as <-.
    exists [ex_track 7 0 [0; 0; 0]%nat]. split; [reflexivity|]. split; [repeat constructor; intros []|].
    split; [intros x Hx; exact Hx|]. intros tr [<-|[]]. split; [unfold covers; cbn; lia|].
    exists 0, 0%nat, []. repeat split; reflexivity.
  - intros fuel.
    assert (A : forall f ws, 0 <= ws -> (exists w, search (fun p => [p]) (fun _ : nat => true) true [1%nat] 200 100 100000 f [ex_track 7 0 [0; 0; 0]%nat] ws = Done ([], w))
       \/ search (fun p => [p]) (fun _ : nat => true) true [1%nat] 200 100 100000 f [ex_track 7 0 [0; 0; 0]%nat] ws = OutOfFuel).
    { induction f as [|f IH]; intros ws Hw; cbn [search]; [now right|]. cbv zeta.
      destruct (100000 <? ws + 100 + 200); [left; eauto|].
      unfold covering. cbn [filter ex_track t_last t_first]. 
      replace (ws + 100 + 200 <=? _) with false by (symmetry; apply Z.leb_gt; cbn; lia). cbn [andb]. apply IH. lia. }
    unfold window_reader. cbn [w_cur w_files w_start skipn search_files].
    destruct (A fuel 0) as [[w E]|E]; [lia| |]; rewrite E; auto.
Qed.

(** With minimum numbers of zero only, a window with recorded vehicles none of which is
    on a lane ends the search of its file, though a later window has vehicles on the lane. *)
Theorem C88_zero_minimum_refuted : exists d : list (track nat),
  let lanes p := if (p <? 5)%nat then [p] else [] in
  (exists ids, window_reader lanes (fun _ => true) 9 true [1%nat] 200 0 100 600 0 [d] 0 None = Done (ids, mkW 300 [d] 0) /\ ids = [7]) /\
  window_reader lanes (fun _ => true) 9 true [0%nat] 200 0 100 600 0 [d] 0 None = Crash.
Proof.
  exists [ex_track 7 0 [9; 9; 9; 0; 0; 0; 0]%nat]. cbv zeta. split; [|reflexivity]. eexists. split; reflexivity.
Qed.

(** A vehicle recorded during a window whose start is not one of its time stamps makes
    the generation raise. *)
Theorem C88_between_samples_refuted : exists d : list (track nat),
  (forall tr, In tr d -> contiguous tr) /\
  window_reader (fun p => [p]) (fun _ => true) 9 true [1%nat] 100 0 150 600 0 [d] 0 None = Crash.
Proof.
  exists [ex_track 7 0 [0; 0; 0; 0; 0; 0]%nat]. split; [|reflexivity]. intros tr [<-|[]]. split; [|split].
  - exists 0, 5. cbn. lia.
  - intros t. cbn [ex_track t_states t_first t_last length]. split.
    + intros (ms & H). cbn in H. repeat (destruct H as [H|H]; [injection H as <- <-; split; [first [exists 0; reflexivity|exists 1; reflexivity|exists 2; reflexivity|exists 3; reflexivity|exists 4; reflexivity|exists 5; reflexivity]|lia]|]). destruct H.
    + intros ((q & ->) & Hq). exists 0%nat. change (100 * (0 + Z.of_nat 6 - 1)) with 500 in Hq. change (100 * 0) with 0 in Hq.
      assert (Q : q = 0 \/ q = 1 \/ q = 2 \/ q = 3 \/ q = 4 \/ q = 5) by lia.
      repeat (destruct Q as [->|Q]; [cbn; tauto|]). subst. cbn. tauto.
  - cbn. repeat constructor; cbn; lia.
Qed.

(** Two lanes, both must be occupied: vehicle 3 joins vehicle 7 late. *)
Example C88_nonvacuous : exists d,
  let r idx st := window_reader (fun p => [p]) (fun p => (p <? 5)%nat) 9 false [1; 1]%nat 200 100 100 1000 0 [[]; d] idx st in
  NoDup (map t_id d) /\ (forall tr, In tr d -> t_id tr = 7 \/ t_id tr = 3) /\
  r 0%nat None = Done ([7; 3], mkW 300 [[]; d] 1) /\
  r 1%nat (Some (mkW 300 [[]; d] 1)) = Done ([7; 3], mkW 500 [[]; d] 1) /\
  r 2%nat (Some (mkW 500 [[]; d] 1)) = Crash.
Proof.
  exists [ex_track 7 0 [0; 0; 0; 0; 0; 0; 0; 0; 0]%nat; ex_track 3 3 [1; 1; 1; 1; 1]%nat].
  cbv zeta. split; [cbn; repeat constructor; cbn; intuition discriminate|]. split; [intros tr [<-|[<-|[]]]; cbn; auto|].
  repeat split; reflexivity.
Qed.

Print Assumptions C88_first_window.
Print Assumptions C88_terminates.
Print Assumptions C88_recorded.
Print Assumptions C88_moves_on.
Print Assumptions C88_fresh.
Print Assumptions C88_stuck.
Print Assumptions C88_first_window_skipped_refuted.
Print Assumptions C88_zero_minimum_refuted.
Print Assumptions C88_between_samples_refuted.
