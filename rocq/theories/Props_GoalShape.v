(** C112: what the distance-to-goal evaluator measures. *)
From Coq Require Import List ZArith Bool Lia QArith Lqa.
From Verif Require Import Model_Goal Spec_Goal Proof_Goal Model_GoalShape.
Import ListNotations.
Local Open Scope nat_scope.

(* ------------------------------------------------------------------ *)
(** * Specification *)

(** Regions to be visited one after the other: how many have been passed during a history. *)
Fixpoint passed_from {O} (k : nat) (ps : list (O -> bool)) (h : list O) : nat :=
  match h with
  | [] => k
  | x :: r => passed_from (match nth_error ps k with Some p => if p x then S k else k | None => k end) ps r
  end.
Definition passed {O} (ps : list (O -> bool)) (h : list O) : nat := passed_from 0 ps h.

(** A task whose regions have shapes. *)
Inductive stask (O P : Type) := SVisit (s : P) (region : O -> bool) | SInOrder (ts : list (stask O P)).
Arguments SVisit {O P}. Arguments SInOrder {O P}.
Fixpoint task_of {O P} (t : stask O P) : task O := match t with SVisit _ p => Visit p | SInOrder ts => InOrder (map task_of ts) end.
Fixpoint shapes_of {O P} (t : stask O P) : shapes P := match t with SVisit s _ => TAtom s | SInOrder ts => TSeq (map shapes_of ts) end.
Fixpoint all_shapes {O P} (t : stask O P) : list P := match t with SVisit s _ => [s] | SInOrder ts => concat (map all_shapes ts) end.

(* ------------------------------------------------------------------ *)
Section S.
Context {O P : Type}.

Definition plain (l : list (P * (O -> bool))) : stask O P := SInOrder (map (fun e => SVisit (fst e) (snd e)) l).
Lemma plain_fresh l : fresh (task_of (plain l)) = GSeq (map (fun e => GAtom (snd e)) l) (-1).
Proof. cbn. rewrite !map_map. reflexivity. Qed.
Lemma plain_shapes l : shapes_of (plain l) = TSeq (map (fun e => TAtom (fst e)) l).
Proof. cbn. rewrite !map_map. reflexivity. Qed.

Lemma ask_atom (ps : list (O -> bool)) x : forall i p, nth_error ps i = Some p ->
  ask (fun t => at_goal t x) (map (fun p => GAtom p) ps) i = Some (p x, map (fun p => GAtom p) ps).
Proof.
  induction ps as [|q ps IH]; intros [|i] p H; cbn in *; try discriminate.
  - injection H as <-. reflexivity.
  - now rewrite (IH i p H).
Qed.
Definition lastz (k : nat) : Z := (Z.of_nat k - 1)%Z.
Lemma step_plain (ps : list (O -> bool)) x k : ps <> [] -> k <= length ps ->
  exists b, at_goal (GSeq (map (fun p => GAtom p) ps) (lastz k)) x =
    Some (b, GSeq (map (fun p => GAtom p) ps) (lastz (match nth_error ps k with Some p => if p x then S k else k | None => k end))).
Proof.
  intros N K. cbn [at_goal]. rewrite map_length. destruct (Z.eqb_spec (lastz k) (-1)) as [E|E].
  - assert (k = 0) as -> by (unfold lastz in E; lia). destruct ps as [|p ps]; [easy|].
    cbn [nth_error]. rewrite (ask_atom (p :: ps) x 0 p eq_refl). destruct (p x); eexists; reflexivity.
  - destruct (Z.leb_spec (lastz k + 1) (Z.of_nat (length ps) - 1)) as [L|L].
    + unfold lastz in L. replace (Z.to_nat (lastz k + 1)) with k by (unfold lastz; lia).
      destruct (nth_error ps k) as [p|] eqn:G; [|apply nth_error_None in G; lia].
      rewrite (ask_atom ps x k p G). destruct (p x); eexists; [|reflexivity]. do 3 f_equal. unfold lastz. lia.
    + assert (k = length ps) as -> by (unfold lastz in L; lia).
      replace (nth_error ps (length ps)) with (@None (O -> bool)) by (symmetry; apply nth_error_None; lia). eexists. reflexivity.
Qed.
Lemma step_bound (ps : list (O -> bool)) x k : k <= length ps ->
  match nth_error ps k with Some p => if p x then S k else k | None => k end <= length ps.
Proof. intros K. destruct (nth_error ps k) as [p|] eqn:G; [|exact K]. assert (k < length ps) by (apply nth_error_Some; congruence). destruct (p x); lia. Qed.
Lemma run_plain (ps : list (O -> bool)) : ps <> [] -> forall h k, k <= length ps ->
  exists bs, run_goal (GSeq (map (fun p => GAtom p) ps) (lastz k)) h = Some (bs, GSeq (map (fun p => GAtom p) ps) (lastz (passed_from k ps h))) /\
  passed_from k ps h <= length ps.
Proof.
  intros N. induction h as [|x h IH]; intros k K; cbn [run_goal passed_from]; [eexists; split; [reflexivity|exact K]|].
  destruct (step_plain ps x k N K) as (b & ->). destruct (IH _ (step_bound ps x k K)) as (bs & -> & B). eexists. split; [reflexivity|exact B].
Qed.

(** The shape a sequence of plain sub-goals shows is the one of the sub-goal passed last, the first one
    before any is passed; and this is what the distance is measured to. *)
Theorem C112_distance_to_sub_goal_passed_last : forall {X D} (distance : P -> X -> D) (l : list (P * (O -> bool))) (h : list O) pos, l <> [] ->
  exists bs g, run_goal (fresh (task_of (plain l))) h = Some (bs, g) /\
    let k := passed (map snd l) h in
    k <= length l /\
    exists s p, nth_error l (k - 1) = Some (s, p) /\
      get_shape (shapes_of (plain l)) g = Some s /\ distance_to_goal distance (Some (shapes_of (plain l), g, pos)) = Some (distance s pos).
Proof.
  intros X D distance l h pos N. rewrite plain_fresh, plain_shapes.
  replace (map (fun e => GAtom (snd e)) l) with (map (fun p => GAtom p) (map snd l)) by (now rewrite map_map).
  assert (NP : map snd l <> []) by (destruct l; easy).
  destruct (run_plain (map snd l) NP h 0 ltac:(lia)) as (bs & R & B). change (lastz 0) with (-1)%Z in R. fold (passed (map snd l) h) in *.
  rewrite map_length in B. set (k := passed (map snd l) h) in *. exists bs. eexists. split; [exact R|]. split; [exact B|].
  assert (L : k - 1 < length l) by (destruct l; [easy|cbn in *; lia]).
  destruct (nth_error l (k - 1)) as [[s p]|] eqn:E; [|apply nth_error_None in E; lia].
  exists s, p. split; [reflexivity|].
  assert (CI : current_index (lastz k) = k - 1) by (unfold current_index, lastz; destruct (Z.eqb_spec (Z.of_nat k - 1) (-1)); lia).
  assert (G : get_shape (TSeq (map (fun e : P * (O -> bool) => TAtom (fst e)) l)) (GSeq (map (fun p => GAtom p) (map snd l)) (lastz k)) = Some s).
  { cbn [get_shape]. rewrite CI, !map_map, !nth_error_map, E. reflexivity. }
  split; [exact G|]. unfold distance_to_goal. now rewrite G.
Qed.

(** Nested goals too always have a shape, one of the task's. *)
Lemma stask_ind' (Q : stask O P -> Prop) (HV : forall s p, Q (SVisit s p)) (HS : forall ts, Forall Q ts -> Q (SInOrder ts)) : forall t, Q t.
Proof.
  fix F 1. intros [s p|ts]; [apply HV|]. apply HS. induction ts as [|t ts IH]; constructor; [apply F|exact IH].
Qed.
Fixpoint fits (t : stask O P) (g : goal O) : Prop :=
  match t, g with
  | SVisit _ p, GAtom q => q = p
  | SInOrder ts, GSeq gs last => ts <> [] /\ (-1 <= last < Z.of_nat (length ts))%Z /\
      (fix all l m := match l, m with [], [] => True | u :: r, v :: s => fits u v /\ all r s | _, _ => False end) ts gs
  | _, _ => False
  end.
Lemma fits_seq ts gs last : fits (SInOrder ts) (GSeq gs last) <-> ts <> [] /\ (-1 <= last < Z.of_nat (length ts))%Z /\ Forall2 fits ts gs.
Proof.
  cbn. split; intros (A & B & C); (split; [exact A|split; [exact B|]]); clear A B; revert gs C; induction ts as [|u ts IH]; intros [|v gs] C; try easy.
  - destruct C as [C1 C2]. constructor; [exact C1|]. now apply IH.
  - inversion C; subst. split; [assumption|]. now apply IH.
Qed.
Lemma fits_fresh : forall t, nonempty (task_of t) -> fits t (fresh (task_of t)).
Proof.
  apply (stask_ind' (fun t => nonempty (task_of t) -> fits t (fresh (task_of t)))); [reflexivity|].
  intros ts F N. cbn [task_of] in N. apply nonempty_seq in N. destruct N as [N1 N2]. cbn [task_of fresh]. apply fits_seq.
  split; [now intros ->|]. split; [destruct ts; [easy|cbn; lia]|].
  rewrite Forall_forall in N2, F. clear N1. induction ts as [|t ts IH]; cbn; constructor.
  - apply F; [now left|]. apply N2. now left.
  - apply IH; intros; [apply F|apply N2]; try (now right); assumption.
Qed.
Lemma fits_ask x : forall ts gs i b gs', Forall (fun t => forall g b g', fits t g -> at_goal g x = Some (b, g') -> fits t g') ts ->
  Forall2 fits ts gs -> ask (fun t => at_goal t x) gs i = Some (b, gs') -> Forall2 fits ts gs' /\ i < length ts.
Proof.
  induction ts as [|t ts IH]; intros gs i b gs' F H A; inversion H; subst; [destruct i; discriminate|].
  inversion F as [|? ? F1 F2]; subst. cbn in A. destruct i as [|i].
  - destruct (at_goal y x) as [[c y']|] eqn:E; [|discriminate]. injection A as <- <-. split; [|cbn; lia]. constructor; [|assumption]. eapply F1; eassumption.
  - destruct (ask _ l' i) as [[c r']|] eqn:E; [|discriminate]. injection A as <- <-. destruct (IH _ _ _ _ F2 H4 E). split; [now constructor|cbn; lia].
Qed.
Lemma fits_step x : forall t g b g', fits t g -> at_goal g x = Some (b, g') -> fits t g'.
Proof.
  apply (stask_ind' (fun t => forall g b g', fits t g -> at_goal g x = Some (b, g') -> fits t g')).
  - intros s p [q|gs last] b g' H A; [|contradiction]. cbn in A. injection A as _ <-. exact H.
  - intros ts F [q|gs last] b g' H A; [contradiction|]. apply fits_seq in H. destruct H as (N & B & H). cbn [at_goal] in A.
    assert (L : length gs = length ts) by (clear - H; induction H; cbn; congruence). rewrite L in A.
    destruct (Z.eqb_spec last (-1)).
    + destruct (ask _ gs 0) as [[c gs']|] eqn:E; [|discriminate]. injection A as _ <-. destruct (fits_ask x ts gs 0 c gs' F H E) as [H' Hi].
      apply fits_seq. split; [exact N|]. split; [destruct c; lia|exact H'].
    + destruct (Z.leb_spec (last + 1) (Z.of_nat (length ts) - 1)).
      * destruct (ask _ gs _) as [[c gs']|] eqn:E; [|discriminate]. injection A as _ <-. destruct (fits_ask x ts gs _ c gs' F H E) as [H' Hi].
        apply fits_seq. split; [exact N|]. split; [destruct c; lia|exact H'].
      * injection A as _ <-. apply fits_seq. auto.
Qed.
Lemma fits_shape : forall t g, fits t g -> exists s, get_shape (shapes_of t) g = Some s /\ In s (all_shapes t).
Proof.
  apply (stask_ind' (fun t => forall g, fits t g -> exists s, get_shape (shapes_of t) g = Some s /\ In s (all_shapes t))).
  - intros s p [q|gs last] H; [|contradiction]. exists s. cbn. auto.
  - intros ts F [q|gs last] H; [contradiction|]. apply fits_seq in H. destruct H as (N & B & H). cbn [shapes_of get_shape all_shapes].
    set (i := current_index last).
    assert (I : i < length ts) by (unfold i, current_index; destruct (Z.eqb_spec last (-1)); [destruct ts; [easy|cbn; lia]|lia]).
    clearbody i. clear N B. revert gs i H I. induction F as [|t ts Ft F IH]; intros gs i H I; [cbn in I; lia|].
    inversion H as [|? g ? gs' Hg Hr]; subst. destruct i as [|i]; cbn [map nth_error].
    + destruct (Ft g Hg) as (s & E & J). exists s. split; [exact E|]. cbn. apply in_or_app. now left.
    + destruct (IH gs' i Hr ltac:(cbn in I; lia)) as (s & E & J). exists s. split; [exact E|]. cbn. apply in_or_app. now right.
Qed.
Theorem C112_nested_goals_have_a_shape : forall (t : stask O P) h bs g,
  nonempty (task_of t) -> run_goal (fresh (task_of t)) h = Some (bs, g) ->
  exists s, get_shape (shapes_of t) g = Some s /\ In s (all_shapes t).
Proof.
  intros t h bs g N R. apply fits_shape. pose proof (fits_fresh t N) as F. revert F R. generalize (fresh (task_of t)). clear N.
  revert bs. induction h as [|x h IH]; intros bs g0 F R; cbn in R; [injection R as _ <-; exact F|].
  destruct (at_goal g0 x) as [[b g1]|] eqn:E; [|discriminate]. destruct (run_goal g1 h) as [[bs' g2]|] eqn:E2; [|discriminate].
  injection R as _ <-. apply (IH bs' g1); [eapply fits_step; eassumption|exact E2].
Qed.

(** At the very moment a sub-goal is passed the distance is zero, if being at the sub-goal means that the
    position is inside its shape. *)
Theorem C112_zero_when_passed : forall {X D} (distance : P -> X -> D) (zero : D) (position : O -> X) l h x, l <> [] ->
  (forall s p y, In (s, p) l -> p y = true -> distance s (position y) = zero) ->
  passed (map snd l) (h ++ [x]) <> passed (map snd l) h ->
  exists bs g, run_goal (fresh (task_of (plain l))) (h ++ [x]) = Some (bs, g) /\
    distance_to_goal distance (Some (shapes_of (plain l), g, position x)) = Some zero.
Proof.
  intros X D distance zero position l h x N Z C.
  destruct (C112_distance_to_sub_goal_passed_last distance l (h ++ [x]) (position x) N) as (bs & g & R & B & s & p & E & _ & Dz).
  exists bs, g. split; [exact R|]. rewrite Dz. f_equal.
  assert (SN : forall (ps : list (O -> bool)) h k, passed_from k ps (h ++ [x]) =
     match nth_error ps (passed_from k ps h) with Some q => if q x then S (passed_from k ps h) else passed_from k ps h | None => passed_from k ps h end).
  { intros ps. induction h0 as [|y r IH]; intros k; cbn; [reflexivity|apply IH]. }
  unfold passed in *. rewrite SN in C, E. rewrite nth_error_map in C, E.
  destruct (nth_error l (passed_from 0 (map snd l) h)) as [[s' q]|] eqn:G; cbn [option_map snd] in C, E; [|congruence].
  destruct (q x) eqn:Q; [|congruence]. rewrite Nat.sub_succ, Nat.sub_0_r in E. rewrite G in E. injection E as <- <-.
  apply (Z s' q); [eapply nth_error_In; eassumption|exact Q].
Qed.
End S.
Print Assumptions C112_distance_to_sub_goal_passed_last.
Print Assumptions C112_nested_goals_have_a_shape.
Print Assumptions C112_zero_when_passed.

(** Intervals of a straight road as shapes. *)
Definition idist (s : Q * Q) (x : Q) : Q := if Qle_bool x (fst s) then fst s - x else if Qle_bool (snd s) x then x - snd s else 0.
Definition inside (s : Q * Q) (x : Q) : bool := Qle_bool (fst s) x && Qle_bool x (snd s).
Definition road := [((0, 1), inside (0, 1)); ((10, 11), inside (10, 11))]%Q.
Definition after (h : list Q) : option Q :=
  match run_goal (fresh (task_of (plain road))) h with
  | Some (_, g) => distance_to_goal idist (Some (shapes_of (plain road), g, last h 0%Q))
  | None => None
  end.
(** While the vehicle drives from the first sub-goal to the second the reported distance grows, and with the
    whole goal reached it need not be zero. *)
Theorem C112_distance_to_what_is_left_refuted :
  after [(1 # 2)]%Q = Some 0%Q /\ (exists d5 d9, after [(1 # 2); 5]%Q = Some d5 /\ after [(1 # 2); 5; 9]%Q = Some d9 /\ (d5 == 4 /\ d9 == 8)%Q /\ (idist (10, 11) 5 == 5 /\ idist (10, 11) 9 == 1)%Q) /\
  (exists d, after [(1 # 2); 10; 20]%Q = Some d /\ (d == 9)%Q) /\
  (exists bs g, run_goal (fresh (task_of (plain road))) [(1 # 2); 10; 20]%Q = Some (bs, g) /\ last bs false = true).
Proof.
  split; [vm_compute; reflexivity|]. split; [eexists; eexists; split; [vm_compute; reflexivity|split; [vm_compute; reflexivity|split; split; vm_compute; reflexivity]]|].
  split; [eexists; split; vm_compute; reflexivity|]. eexists. eexists. split; reflexivity.
Qed.
Print Assumptions C112_distance_to_what_is_left_refuted.

(** Without the agent there is no result (the null pointer is dereferenced). *)
Lemma missing_agent : forall {P O X D} (distance : P -> X -> D), distance_to_goal (O := O) distance None = None.
Proof. reflexivity. Qed.

Example C112_nonvacuous : passed (map snd road) [(1 # 2); 5; 10; 3]%Q = 2 /\ passed (map snd road) [10; 3]%Q = 0 /\
  nonempty (task_of (SInOrder [plain road; SVisit (20, 21)%Q (inside (20, 21)%Q)])) /\
  (forall s p y, In (s, p) road -> p y = true -> (idist s y == 0)%Q).
Proof.
  split; [reflexivity|]. split; [reflexivity|]. split; [cbn; repeat split; discriminate|].
  intros s p y [H|[H|[]]] I; injection H as <- <-; unfold inside, idist in *; cbn [fst snd] in *; apply andb_true_iff in I; destruct I as [A B];
    apply Qle_bool_iff in A; apply Qle_bool_iff in B.
  - destruct (Qle_bool y 0) eqn:E1; [apply Qle_bool_iff in E1; lra|]. destruct (Qle_bool 1 y) eqn:E2; [apply Qle_bool_iff in E2; lra|reflexivity].
  - destruct (Qle_bool y 10) eqn:E1; [apply Qle_bool_iff in E1; lra|]. destruct (Qle_bool 11 y) eqn:E2; [apply Qle_bool_iff in E2; lra|reflexivity].
Qed.
