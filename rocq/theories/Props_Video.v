(* C105: a video shows the worlds drawn, in order. *)
From Coq Require Import String List ZArith QArith Bool Arith Lia Lqa.
From Verif Require Import Model_Video.
Import ListNotations.
Local Open Scope nat_scope.

Section Video.
  Context {W : Type} (at_time : W -> Q -> W) (time : W -> Q).

  (* --- specification --- *)
  (* the k times t, t + dt, t + 2 dt, ... *)
  Fixpoint times_from (t dt : Q) (k : nat) : list Q := match k with O => [] | S k' => t :: times_from (t + dt) dt k' end.
  Lemma times_from_nth t dt k i x : nth_error (times_from t dt k) i = Some x -> (x == t + inject_Z (Z.of_nat i) * dt)%Q.
  Proof.
    revert t i. induction k as [|k IH]; intros t [|i] E; cbn in E; try discriminate.
    - inversion E; subst. unfold inject_Z. cbn. lra.
    - apply IH in E. rewrite E, Nat2Z.inj_succ, <- Z.add_1_l, inject_Z_plus. change (inject_Z 1) with 1%Q. lra.
  Qed.
  Lemma times_from_len t dt k : length (times_from t dt k) = k.
  Proof. revert t. induction k; intros; cbn; auto. Qed.
  (* the picture that stays of one drawWorld with k intermediate steps: the world carried through the intermediate times *)
  Definition last_intermediate (step : Q) (k : nat) (w : W) : W :=
    fold_left at_time (times_from (time w) (step / inject_Z (Z.of_nat k)) k) w.
  Definition shown (step : Q) (inter : option nat) (w : W) : W :=
    match inter with None => w | Some k => last_intermediate step k w end.
  Definition stride (inter : option nat) : nat := match inter with None => 1 | Some k => k end.
  Definition files (r : recorder W) (f : nat -> option W) : Prop := exists d, r_dir r = Some d /\ forall n, frame n d = f n.

  (* --- proofs --- *)
  Lemma frame_save n (w : W) d m : frame m (save n w d) = if Nat.eqb m n then Some w else frame m d.
  Proof.
    unfold save. cbn [frame]. destruct (Nat.eqb_spec m n) as [->|Ne]; auto.
    induction d as [|[k x] d IH]; cbn [filter frame fst]; auto. destruct (Nat.eqb_spec n k) as [->|Nk]; cbn [negb frame].
    - rewrite IH. destruct (Nat.eqb_spec m k); congruence.
    - rewrite IH. reflexivity.
  Qed.
  Definition same_setup (r r' : recorder W) : Prop := r_step r' = r_step r /\ r_inter r' = r_inter r.
  Lemma render_steps_ok k dt : forall w t file r d, r_dir r = Some d ->
    exists r' d', render_steps at_time k dt w t file r = VOk r' /\ same_setup r r' /\ r_count r' = r_count r + k /\ r_dir r' = Some d' /\
      forall n, frame n d' = if Nat.eqb n file && negb (Nat.eqb k 0) then Some (fold_left at_time (times_from t dt k) w) else frame n d.
  Proof.
    induction k as [|k IH]; intros w t file r d D.
    - exists r, d. cbn. split; auto. split; [split; auto|]. split; [lia|]. split; auto. intros n. now rewrite andb_false_r.
    - cbn [render_steps]. unfold render_world. rewrite D.
      destruct (IH (at_time w t) (t + dt)%Q file _ _ (eq_refl : r_dir (mkRec (Some (save file (at_time w t) d)) (S (r_count r)) (r_step r) (r_inter r)) = Some _))
        as (r' & d' & E & (S1 & S2) & C & D' & F).
      exists r', d'. split; auto. cbn [r_step r_inter r_count] in *. split; [split; auto|]. split; [lia|]. split; auto.
      intros n. rewrite F, frame_save. cbn [times_from fold_left Nat.eqb negb]. rewrite andb_true_r.
      destruct (Nat.eqb_spec n file) as [->|Ne]; cbn [andb]; auto. destruct k; cbn; auto.
  Qed.
  Lemma draw_world_ok w r d : r_dir r = Some d ->
    exists r' d', draw_world at_time time w r = VOk r' /\ same_setup r r' /\ r_count r' = r_count r + stride (r_inter r) /\ r_dir r' = Some d' /\
      forall n, frame n d' = if Nat.eqb n (r_count r) && negb (Nat.eqb (stride (r_inter r)) 0) then Some (shown (r_step r) (r_inter r) w) else frame n d.
  Proof.
    intros D. unfold draw_world. destruct (r_inter r) as [k|] eqn:I.
    - destruct (render_steps_ok k (r_step r / inject_Z (Z.of_nat k)) w (time w) (r_count r) r d D) as (r' & d' & E & (S1 & S2) & C & D' & F).
      exists r', d'. split; auto. split; [split; congruence|]. auto.
    - unfold render_world. rewrite D. eexists _, _. split; [reflexivity|]. cbn [r_count r_dir stride shown Nat.eqb negb].
      split; [split; cbn; auto|]. split; [lia|]. split; [reflexivity|]. intros n. rewrite frame_save, andb_true_r. reflexivity.
  Qed.
  Lemma draw_worlds_ok l : forall r d, r_dir r = Some d -> stride (r_inter r) <> 0 ->
    exists r' d', draw_worlds at_time time l r = VOk r' /\ same_setup r r' /\ r_count r' = r_count r + length l * stride (r_inter r) /\ r_dir r' = Some d' /\
      (forall j w, nth_error l j = Some w -> frame (r_count r + j * stride (r_inter r)) d' = Some (shown (r_step r) (r_inter r) w)) /\
      (forall n, (forall j, j < length l -> n <> r_count r + j * stride (r_inter r)) -> frame n d' = frame n d).
  Proof.
    induction l as [|w l IH]; intros r d D S0.
    - exists r, d. cbn. repeat split; auto. intros [|j]; discriminate.
    - cbn [draw_worlds]. destruct (draw_world_ok w r d D) as (r1 & d1 & E1 & (A1 & B1) & C1 & D1 & F1). rewrite E1.
      assert (S1 : stride (r_inter r1) <> 0) by (now rewrite B1).
      destruct (IH r1 d1 D1 S1) as (r2 & d2 & E2 & (A2 & B2) & C2 & D2 & F2 & G2). exists r2, d2.
      rewrite B1, C1, A1 in *. set (s := stride (r_inter r)) in *.
      split; auto. split; [split; congruence|]. split; [cbn [length]; lia|]. split; auto. split.
      + intros [|j] x E; cbn [nth_error] in E.
        * inversion E; subst x. replace (r_count r + 0 * s) with (r_count r) by lia. rewrite G2.
          -- rewrite F1, Nat.eqb_refl. destruct (Nat.eqb_spec s 0); [contradiction|reflexivity].
          -- intros j _ X. nia.
        * replace (r_count r + S j * s) with (r_count r + s + j * s) by lia. now apply F2.
      + intros n H. rewrite G2.
        * rewrite F1. destruct (Nat.eqb_spec n (r_count r)) as [->|Ne]; auto. exfalso. apply (H 0); cbn [length]; lia.
        * intros j J X. apply (H (S j)); cbn [length]; lia.
  Qed.

  (* what the directory holds after drawing the worlds l with a new recorder *)
  Theorem C105_frames_of_the_worlds existing clear step inter l : (inter = None \/ exists k, inter = Some k /\ k <> 0) ->
    exists r, draw_worlds at_time time l (new_recorder existing clear step inter) = VOk r /\ r_count r = length l * stride inter /\
      exists f, files r f /\
        (forall j w, nth_error l j = Some w -> f (j * stride inter) = Some (shown step inter w)) /\
        (forall n, (forall j, j < length l -> n <> j * stride inter) ->
           f n = if clear then None else match existing with Some d => frame n d | None => None end).
  Proof.
    intros H. assert (S0 : stride inter <> 0) by (destruct H as [->|(k & -> & N)]; cbn; auto).
    destruct (draw_worlds_ok l (new_recorder existing clear step inter) _ eq_refl S0) as (r & d & E & _ & C & D & F & G).
    cbn [new_recorder r_count r_inter r_step Nat.add] in *. exists r. split; auto. split; auto. exists (fun n => frame n d).
    split; [exists d; auto|]. split; auto. intros n Hn. rewrite G; auto. destruct existing as [e|], clear; reflexivity.
  Qed.

  Lemma frame_in n (d : frames W) (w : W) : frame n d = Some w -> In n (map fst d).
  Proof.
    induction d as [|[k x] d IH]; cbn; [discriminate|]. destruct (Nat.eqb_spec n k); auto.
  Qed.
  Lemma read_frames_ok (d : frames W) : forall fuel n l, (forall j w, nth_error l j = Some w -> frame (n + j) d = Some w) ->
    frame (n + length l) d = None -> length l <= fuel -> read_frames fuel n d = l.
  Proof.
    intros fuel. induction fuel as [|f IH]; intros n l H N L.
    - destruct l; cbn in L; [reflexivity|lia].
    - destruct l as [|w l]; cbn [read_frames].
      + cbn [length] in N. rewrite Nat.add_0_r in N. now rewrite N.
      + pose proof (H 0 w eq_refl) as E. rewrite Nat.add_0_r in E. rewrite E. f_equal. apply IH.
        * intros j x X. rewrite <- (H (S j) x X). f_equal. lia.
        * rewrite <- N. f_equal. cbn [length]. lia.
        * cbn [length] in L. lia.
  Qed.
  Lemma enough_fuel d (l : list W) : (forall j w, nth_error l j = Some w -> frame j d = Some w) -> length l <= length d.
  Proof.
    intros H. rewrite <- (seq_length (length l) 0), <- (map_length fst d). apply NoDup_incl_length; [apply seq_NoDup|].
    intros n I. apply in_seq in I. destruct (nth_error l n) as [w|] eqn:E; [|apply nth_error_None in E; lia].
    apply (frame_in n d w). now apply H.
  Qed.
  Lemma export_ok step inter (l : list W) folder ex rem (r : recorder W) (d : frames W) :
    r_dir r = Some d -> r_step r = step -> r_inter r = inter -> ~ (step == 0)%Q -> stride inter <> 0 -> folder <> EmptyString ->
    (forall j w, nth_error l j = Some w -> frame j d = Some w) -> frame (length l) d = None -> l <> [] ->
    exists r' rate, export_video folder ex rem r = VOk (r', Some (mkVideo rate l)) /\
      (rate == inject_Z (Z.of_nat (stride inter)) / step)%Q /\ r_dir r' = if rem then None else Some d.
  Proof.
    intros D Es Ei Ns Nk Nf H N Ne. unfold export_video. rewrite D, Es, Ei.
    assert (Q0 : Qeq_bool step 0 = false).
    { destruct (Qeq_bool step 0) eqn:X; auto. apply Qeq_bool_eq in X. contradiction. }
    assert (Sf : String.eqb folder "" = false) by (now apply String.eqb_neq).
    assert (Fr : read_frames (length d) 0 d = l) by (apply read_frames_ok; auto using enough_fuel).
    rewrite Q0, Sf, Fr. destruct inter as [[|k]|]; cbn [stride] in *; [congruence| |];
      (destruct l as [|w l0]; [congruence|]);
      destruct rem; (eexists _, _; split; [reflexivity|]; split; [|first [reflexivity|exact D]]).
    1, 2: assert (~ (inject_Z (Z.of_nat (S k)) == 0)%Q) by (unfold Qeq, inject_Z; cbn; lia); field; auto.
    1, 2: reflexivity.
  Qed.

  Lemma nth_skipn (k n : nat) (l : list W) : nth_error (skipn k l) n = nth_error l (k + n).
  Proof. revert l. induction k; intros [|x l]; cbn; auto. now destruct n. Qed.
  (* without intermediate steps: one frame per world, in order, each for one time step *)
  Theorem C105_video_shows_the_worlds existing step l folder ex rem : ~ (step == 0)%Q -> folder <> EmptyString -> l <> [] ->
    exists r r' rate, draw_worlds at_time time l (new_recorder existing true step None) = VOk r /\
      export_video folder ex rem r = VOk (r', Some (mkVideo rate l)) /\ (inject_Z (Z.of_nat (length l)) / rate == inject_Z (Z.of_nat (length l)) * step)%Q /\
      (if rem then r_dir r' = None else r' = r).
  Proof.
    intros Ns Nf Nl. destruct (draw_worlds_ok l (new_recorder existing true step None) _ eq_refl) as (r & d & E & (A & B) & C & D & F & G); [cbn; lia|].
    cbn [new_recorder r_count r_inter r_step Nat.add stride shown] in *.
    destruct (export_ok step None l folder ex rem r d D A B Ns ltac:(cbn; lia)) as (r' & rate & X & R & Y); auto.
    - intros j w H. rewrite <- (F j w H). f_equal. lia.
    - rewrite G; [destruct existing; reflexivity|]. intros j J. lia.
    - exists r, r', rate. split; auto. split; auto. split; [rewrite R; cbn [stride]; change (inject_Z (Z.of_nat 1)) with 1%Q; field; auto|].
      destruct rem; auto. clear - X. unfold export_video in X.
      match type of X with match ?m with _ => _ end = _ => destruct m end; [|discriminate]. destruct (String.eqb folder ""); [discriminate|].
      inversion X; auto.
  Qed.
  (* frames of an older video stay and follow the new ones, if the directory is not cleared *)
  Theorem C105_old_frames_follow d step l folder ex rem old : ~ (step == 0)%Q -> folder <> EmptyString -> l <> [] ->
    (forall n, frame n d = nth_error old n) ->
    exists r r' rate, draw_worlds at_time time l (new_recorder (Some d) false step None) = VOk r /\
      export_video folder ex rem r = VOk (r', Some (mkVideo rate (l ++ skipn (length l) old))).
  Proof.
    intros Ns Nf Nl Ho. destruct (draw_worlds_ok l (new_recorder (Some d) false step None) _ eq_refl) as (r & d' & E & (A & B) & C & D & F & G); [cbn; lia|].
    cbn [new_recorder r_count r_inter r_step Nat.add stride shown] in *.
    assert (G' : forall n, length l <= n -> frame n d' = nth_error (l ++ skipn (length l) old) n).
    { intros n L. rewrite G, Ho, nth_error_app2 by lia. rewrite nth_skipn. f_equal. lia. }
    destruct (export_ok step None (l ++ skipn (length l) old) folder ex rem r d' D A B Ns ltac:(cbn; lia)) as (r' & rate & X & R & Y); auto.
    - intros j w H. destruct (lt_dec j (length l)) as [L|L].
      + rewrite nth_error_app1 in H by lia. rewrite <- (F j w H). f_equal. lia.
      + rewrite G' by lia. exact H.
    - rewrite G' by (rewrite app_length; lia). now apply nth_error_None.
    - destruct l; [congruence|discriminate].
    - exists r, r', rate. auto.
  Qed.
  (* k intermediate steps: the pictures of one drawWorld share one file and the numbers have gaps, so a video of two or
     more steps per world shows one picture only, the last intermediate one of the first world *)
  Theorem C105_intermediate_steps existing step k w l folder ex rem : ~ (step == 0)%Q -> folder <> EmptyString -> k <> 0 ->
    exists r r' rate, draw_worlds at_time time (w :: l) (new_recorder existing true step (Some k)) = VOk r /\
      export_video folder ex rem r = VOk (r', Some (mkVideo rate
        (if Nat.eqb k 1 then map (last_intermediate step 1) (w :: l) else [last_intermediate step k w]))) /\
      (rate == inject_Z (Z.of_nat k) / step)%Q.
  Proof.
    intros Ns Nf Nk. destruct (draw_worlds_ok (w :: l) (new_recorder existing true step (Some k)) _ eq_refl) as (r & d & E & (A & B) & C & D & F & G); [exact Nk|].
    cbn [new_recorder r_count r_inter r_step Nat.add stride shown] in *.
    assert (Em : forall n, (forall j, j < length (w :: l) -> n <> j * k) -> frame n d = None).
    { intros n H. rewrite (G n H). destruct existing; reflexivity. }
    destruct (Nat.eqb_spec k 1) as [->|K1].
    - destruct (export_ok step (Some 1) (map (last_intermediate step 1) (w :: l)) folder ex rem r d D A B Ns ltac:(cbn; lia)) as (r' & rate & X & R & Y); auto.
      + intros j x H. rewrite nth_error_map in H. destruct (nth_error (w :: l) j) as [y|] eqn:Hy; [|discriminate]. inversion H; subst x.
        rewrite <- (F j y Hy). f_equal. lia.
      + rewrite map_length. apply Em. intros j J. lia.
      + discriminate.
      + exists r, r', rate. auto.
    - destruct (export_ok step (Some k) [last_intermediate step k w] folder ex rem r d D A B Ns ltac:(cbn; lia)) as (r' & rate & X & R & Y); auto.
      + intros [|[|j]] x H; try discriminate. cbn in H. inversion H. subst x. now apply (F 0 w).
      + apply Em. intros j _ X. cbn [length] in X. destruct j; [discriminate|]. destruct k as [|[|k]]; [congruence|congruence|nia].
      + discriminate.
      + exists r, r', rate. auto.
  Qed.
  (* 0 intermediate steps, a step time of 0, a name without directory are refused; after an export that removed the
     pictures nothing can be drawn any more *)
  Theorem C105_refused :
    (forall (r : recorder W) folder ex rem, r_inter r = Some 0 \/ (r_step r == 0)%Q -> export_video folder ex rem r = VZeroDivision (r, None)) /\
    (forall (r : recorder W) ex rem, ~ (r_step r == 0)%Q -> r_inter r <> Some 0 -> export_video "" ex rem r = VFileNotFound (r, None)) /\
    (forall (r r' : recorder W) folder ex v w, export_video folder ex true r = VOk (r', v) -> r_inter r <> Some 0 ->
       draw_world at_time time w r' = VFileNotFound r').
  Proof.
    split; [|split].
    - intros r folder ex rem [E|E]; unfold export_video; [rewrite E; reflexivity|]. apply Qeq_bool_iff in E. rewrite E.
      destruct (r_inter r) as [[|k]|]; reflexivity.
    - intros r ex rem N I. unfold export_video.
      assert (Q0 : Qeq_bool (r_step r) 0 = false) by (destruct (Qeq_bool (r_step r) 0) eqn:X; auto; apply Qeq_bool_eq in X; contradiction).
      rewrite Q0. destruct (r_inter r) as [[|k]|]; [congruence| |]; reflexivity.
    - intros r r' folder ex v w E I. unfold export_video in E.
      match type of E with match ?m with _ => _ end = _ => destruct m end; [|discriminate]. destruct (String.eqb folder ""); [discriminate|].
      destruct (r_dir r); [|discriminate]. inversion E; subst r'. unfold draw_world. cbn [r_inter r_count r_step].
      destruct (r_inter r) as [[|k]|]; [congruence| |]; reflexivity.
  Qed.
End Video.

(* --- examples; a world is its time --- *)
Definition toy_at (w t : Q) : Q := t.
Definition toy_time (w : Q) : Q := w.
Definition result {A} (r : vres A) : option A := match r with VOk a => Some a | _ => None end.
Example C105_nonvacuous :
  match draw_worlds toy_at toy_time [0; 1 # 5; 2 # 5]%Q (new_recorder (Some [(0, 7%Q); (3, 8%Q)]) true (1 # 5) None) with
  | VOk r => option_map snd (result (export_video "/tmp" true true r))
  | _ => None
  end = Some (Some (mkVideo (5 # 1) [0; 1 # 5; 2 # 5]%Q)).
Proof. reflexivity. Qed.
Example C105_nonvacuous_old : (forall n, frame n [(0, 7%Q); (1, 8%Q); (2, 9%Q)] = nth_error [7; 8; 9]%Q n) /\
  match draw_worlds toy_at toy_time [0; 1 # 5]%Q (new_recorder (Some [(0, 7%Q); (1, 8%Q); (2, 9%Q)]) false (1 # 5) None) with
  | VOk r => option_map snd (result (export_video "/tmp" true true r))
  | _ => None
  end = Some (Some (mkVideo (5 # 1) [0; 1 # 5; 9]%Q)).
Proof. split; [intros [|[|[|[|n]]]]; reflexivity|reflexivity]. Qed.
(* a video with two pictures per world shows two pictures per world: false *)
Theorem C105_intermediate_pictures_are_in_the_video_refuted :
  exists l r, length l = 3 /\ draw_worlds toy_at toy_time l (new_recorder None true (1 # 5) (Some 2)) = VOk r /\ r_count r = 6 /\
    option_map snd (result (export_video "/tmp" true true r)) = Some (Some (mkVideo (10 # 1) [1 # 10]%Q)).
Proof.
  exists [0; 1 # 5; 2 # 5]%Q. eexists. split; [reflexivity|]. split; [reflexivity|]. split; reflexivity.
Qed.

Print Assumptions C105_frames_of_the_worlds.
Print Assumptions C105_video_shows_the_worlds.
Print Assumptions C105_old_frames_follow.
Print Assumptions C105_intermediate_steps.
Print Assumptions C105_refused.
Print Assumptions C105_intermediate_pictures_are_in_the_video_refuted.
