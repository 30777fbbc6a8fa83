(** Lemmas for configuration creation and single runs. *)
From Coq Require Import String List Arith Lia Bool Permutation.
Import ListNotations.
From Verif Require Import Model_Benchmark Model_BenchRun Proof_Benchmark.
Local Open Scope string_scope.
Local Open Scope nat_scope.
Local Open Scope list_scope.

(** ** dicts *)
Section Dict.
Context {V : Type}.

Lemma dget_dset_same (d : dct V) k v : dget (dset d k v) k = Some v.
Proof.
  induction d as [|[j w] r IH]; simpl.
  - now rewrite String.eqb_refl.
  - destruct (String.eqb j k) eqn:E; simpl; [now rewrite String.eqb_refl|]. now rewrite E.
Qed.

Lemma dget_dset_other (d : dct V) k k' v : k' <> k -> dget (dset d k v) k' = dget d k'.
Proof.
  intros N. induction d as [|[j w] r IH]; simpl.
  - destruct (String.eqb_spec k k'); congruence.
  - destruct (String.eqb_spec j k) as [->|E]; simpl.
    + destruct (String.eqb_spec k k'); congruence.
    + destruct (String.eqb j k'); auto.
Qed.

Lemma dget_none (d : dct V) k : ~ In k (map fst d) <-> dget d k = None.
Proof.
  induction d as [|[j w] r IH]; simpl; [tauto|].
  destruct (String.eqb_spec j k) as [->|E].
  - split; [tauto|discriminate].
  - rewrite <- IH. tauto.
Qed.

Lemma dget_in (d : dct V) k v : dget d k = Some v -> In (k, v) d.
Proof.
  induction d as [|[j w] r IH]; simpl; [discriminate|].
  destruct (String.eqb_spec j k) as [->|E]; [intros E; injection E as ->; auto|auto].
Qed.

Lemma dget_dupdate (b : dct V) : forall a k, NoDup (map fst b) ->
  dget (dupdate a b) k = match dget b k with Some v => Some v | None => dget a k end.
Proof.
  unfold dupdate. induction b as [|[j w] r IH]; intros a k N; auto.
  cbn [fold_left fst snd]. simpl in N. inversion N; subst. rewrite IH by auto. simpl.
  destruct (String.eqb_spec j k) as [->|E].
  - rewrite (proj1 (dget_none r k)) by auto. apply dget_dset_same.
  - destruct (dget r k); auto. apply dget_dset_other. congruence.
Qed.
End Dict.

(** ** contains *)
Lemma prefix_app a b : String.prefix a b = true <-> exists r, b = (a ++ r)%string.
Proof.
  revert b. induction a as [|x a IH]; intros b.
  - simpl. split; [eauto|destruct b; auto].
  - destruct b as [|y b]; simpl.
    + split; [discriminate|]. intros (r & E); discriminate.
    + destruct (Ascii.ascii_dec x y) as [->|N].
      * rewrite IH. split; intros (r & E); exists r; congruence.
      * split; [discriminate|]. intros (r & E). congruence.
Qed.

Lemma contains_spec a b : contains a b = true <-> exists x y, b = (x ++ a ++ y)%string.
Proof.
  induction b as [|c b IH].
  - cbn [contains]. rewrite orb_false_r, prefix_app. split.
    + intros (r & E). exists "", r. exact E.
    + intros (x & y & E). destruct x; [|discriminate]. exists y. exact E.
  - cbn [contains]. rewrite orb_true_iff, prefix_app, IH. split.
    + intros [(r & E)|(x & y & E)].
      * exists "", r. exact E.
      * exists (String c x), y. simpl. congruence.
    + intros (x & y & E). destruct x as [|c' x].
      * left. exists y. exact E.
      * right. simpl in E. injection E as _ E. eauto.
Qed.

(** ** configurations *)
Section Create.
Context {B Sc Val : Type}.
Variable dataset_desc : Sc -> dct Val.

Definition take_num {A} (num : option nat) (l : list A) : list A :=
  match num with None | Some 0 => l | Some n => firstn n l end.

Definition numbered (c : list (bconfig B Sc Val)) : Prop :=
  forall k x, nth_error c k = Some x -> bc_idx x = k.

Definition view (x : bconfig B Sc Val) : B * Sc * nat * string * dct Val :=
  (bc_behavior x, bc_scenario x, bc_scen_idx x, bc_set x, bc_desc x).

Lemma numbered_snoc acc x : numbered acc -> bc_idx x = length acc -> numbered (acc ++ [x]).
Proof.
  intros N E k y. destruct (lt_dec k (length acc)) as [L|L].
  - rewrite nth_error_app1 by auto. apply N.
  - rewrite nth_error_app2 by lia. destruct (k - length acc) eqn:Ek.
    + simpl. intros Ey; injection Ey as <-. lia.
    + simpl. destruct n; discriminate.
Qed.

Definition rest_num {A} (num : option nat) (i : nat) (l : list A) : list A :=
  match num with None | Some 0 => l | Some n => firstn (n - i) l end.

Lemma create_scens_spec num b s : forall scs i acc, numbered acc ->
  numbered (create_scens dataset_desc num b s scs i acc) /\
  map view (create_scens dataset_desc num b s scs i acc) =
  map view acc ++ map (fun is => (b, snd is, fst is, ss_name s,
                                  dupdate (ss_desc s) (dataset_desc (snd is))))
                      (rest_num num i (combine (seq i (length scs)) scs)).
Proof.
  induction scs as [|sc r IH]; intros i acc N; cbn [create_scens].
  - split; auto. simpl. unfold rest_num. destruct num as [[|n]|]; rewrite ?firstn_nil; simpl; now rewrite app_nil_r.
  - destruct (past num i) eqn:Ep.
    + split; auto. unfold past in Ep. unfold rest_num.
      destruct num as [[|n]|]; try discriminate. apply Nat.leb_le in Ep.
      replace (S n - i) with 0 by lia. simpl. now rewrite app_nil_r.
    + match goal with |- context [acc ++ [?x]] => set (x0 := x) end.
      destruct (IH (S i) (acc ++ [x0])) as [N1 E1]; [apply numbered_snoc; auto|].
      split; auto. rewrite E1. rewrite map_app, <- app_assoc. f_equal. simpl map at 1.
      cbn [length seq combine]. unfold rest_num. unfold past in Ep.
      destruct num as [[|n]|]; try reflexivity.
      apply Nat.leb_gt in Ep. replace (S n - i) with (S (S n - S i)) by lia. reflexivity.
Qed.

Definition enum {A} (l : list A) : list (nat * A) := combine (seq 0 (length l)) l.

Lemma rest_take {A} num (l : list A) : rest_num num 0 l = take_num num l.
Proof. unfold rest_num, take_num. destruct num as [[|n]|]; auto. Qed.

Lemma create_set_spec num b db : forall acc, numbered acc ->
  let l := fold_left (fun acc s => create_scens dataset_desc num b s (ss_scenarios s) 0 acc) db acc in
  numbered l /\
  map view l = map view acc ++
    flat_map (fun s => map (fun is => (b, snd is, fst is, ss_name s,
                                       dupdate (ss_desc s) (dataset_desc (snd is))))
                           (take_num num (enum (ss_scenarios s)))) db.
Proof.
  induction db as [|s db IH]; intros acc N; simpl.
  - split; auto. now rewrite app_nil_r.
  - destruct (create_scens_spec num b s (ss_scenarios s) 0 acc N) as [N1 E1].
    destruct (IH _ N1) as [N2 E2]. split; [exact N2|]. rewrite E2, E1, <- app_assoc.
    now rewrite rest_take.
Qed.

Lemma create_spec num (behs : list B) db :
  let l := create_configs dataset_desc num behs db in
  numbered l /\
  map view l =
    flat_map (fun b => flat_map (fun s =>
       map (fun is => (b, snd is, fst is, ss_name s, dupdate (ss_desc s) (dataset_desc (snd is))))
           (take_num num (enum (ss_scenarios s)))) db) behs.
Proof.
  unfold create_configs.
  assert (G : forall acc, numbered acc ->
    let l := fold_left (fun acc b => fold_left (fun acc s =>
        create_scens dataset_desc num b s (ss_scenarios s) 0 acc) db acc) behs acc in
    numbered l /\ map view l = map view acc ++
      flat_map (fun b => flat_map (fun s =>
       map (fun is => (b, snd is, fst is, ss_name s, dupdate (ss_desc s) (dataset_desc (snd is))))
           (take_num num (enum (ss_scenarios s)))) db) behs).
  { induction behs as [|b behs IH]; intros acc N; simpl.
    - split; auto. now rewrite app_nil_r.
    - destruct (create_set_spec num b db acc N) as [N1 E1].
      destruct (IH _ N1) as [N2 E2]. split; [exact N2|]. rewrite E2, E1. now rewrite app_assoc. }
  apply (G []). intros k x. destruct k; discriminate.
Qed.

Lemma create_gen_same num (behs : list B) cls (scs : list Sc) :
  create_configs_gen num behs cls scs =
  create_configs (fun _ => []) num behs
    [{| ss_scenarios := scs; ss_name := cls; ss_desc := @nil (string * Val) |}].
Proof.
  unfold create_configs_gen, create_configs. simpl.
  assert (G : forall (b : B) (l : list Sc) i acc, create_scens_gen num b cls l i acc =
     create_scens (fun _ : Sc => []) num b
       {| ss_scenarios := scs; ss_name := cls; ss_desc := @nil (string * Val) |} l i acc).
  { intros b l. induction l as [|x r IH]; intros i acc; simpl; auto. destruct (past num i); auto. }
  assert (forall acc, fold_left (fun acc b => create_scens_gen num b cls scs 0 acc) behs acc =
     fold_left (fun acc b => create_scens (fun _ : Sc => []) num b
       {| ss_scenarios := scs; ss_name := cls; ss_desc := @nil (string * Val) |} scs 0 acc) behs acc).
  { induction behs as [|b r IH]; intros acc; cbn [fold_left]; auto. rewrite IH, G. reflexivity. }
  auto.
Qed.

Lemma numbered_nodup l : numbered l -> map bc_idx l = seq 0 (length l).
Proof.
  intros N. apply nth_ext with (d := 0) (d' := 0).
  - now rewrite map_length, seq_length.
  - intros k Hk. rewrite map_length in Hk. rewrite seq_nth by auto. simpl.
    destruct (nth_error l k) as [x|] eqn:E.
    + rewrite (nth_error_nth (map bc_idx l) k 0 (x := bc_idx x)).
      * apply N in E; auto.
      * now apply map_nth_error.
    + apply nth_error_None in E. lia.
Qed.

End Create.

(** ** one configuration *)
Section Run.
Context {B Sc V W Ev : Type}.
Variable evaluate : Ev -> W -> option (Ev * V).
Variable plan execute : W -> option W.
Variable behavior_desc : B -> string * dct (@cell V).
Variable t : @terminal_when V.
Variable c : bconfig B Sc (@cell V).
Variable keep : bool.

Notation evs := (list (string * Ev)).

(** The world and the evaluators after k rounds of evaluate, plan, execute. *)
Fixpoint progress (w : W) (es : evs) (k : nat) : option (W * evs) :=
  match k with
  | 0 => Some (w, es)
  | S k' =>
      match progress w es k' with
      | None => None
      | Some (w', es') =>
          match eval_all evaluate es' w', plan w' with
          | Some (es2, _), Some w1 => option_map (fun w2 => (w2, es2)) (execute w1)
          | _, _ => None
          end
      end
  end.

(** What the evaluators report at round k. *)
Definition observed (w : W) (es : evs) (k : nat) : option (dct V) :=
  match progress w es k with
  | None => None
  | Some (w', es') => option_map snd (eval_all evaluate es' w')
  end.

(** No criterion holds at round k. *)
Definition quiet (w : W) (es : evs) (k : nat) : Prop :=
  exists d, observed w es k = Some d /\ is_terminal t (bc_set c) d = Some [].

Definition worlds (w : W) (es : evs) (n : nat) : list W :=
  flat_map (fun k => match progress w es k with Some (w', _) => [w'] | None => [] end) (seq 1 n).

Notation steps := (run_steps evaluate plan execute behavior_desc).

Lemma progress_shift w es w1 es1 k :
  progress w es 1 = Some (w1, es1) -> progress w1 es1 k = progress w es (S k).
Proof.
  intros E. induction k as [|k IH]; [now rewrite E|].
  cbn [progress]. rewrite IH. reflexivity.
Qed.

Lemma observed_shift w es w1 es1 k :
  progress w es 1 = Some (w1, es1) -> observed w1 es1 k = observed w es (S k).
Proof. intros E. unfold observed. now rewrite (progress_shift _ _ _ _ _ E). Qed.

Lemma worlds_shift w es w1 es1 n :
  progress w es 1 = Some (w1, es1) -> worlds w es (S n) = w1 :: worlds w1 es1 n.
Proof.
  intros E. unfold worlds. cbn [seq flat_map]. rewrite E. simpl. f_equal.
  rewrite <- seq_shift. rewrite !flat_map_concat_map, map_map. f_equal.
  apply map_ext. intros k. now rewrite (progress_shift _ _ _ _ _ E).
Qed.

Lemma progress_back w es n k : k <= n -> progress w es n <> None -> progress w es k <> None.
Proof.
  induction 1 as [|m Hm IH]; auto. intros N. apply IH. intros E. apply N.
  cbn [progress]. now rewrite E.
Qed.

Lemma steps_skip n : forall w es s h fuel w' es',
  (forall k, k < n -> quiet w es k) -> progress w es n = Some (w', es') ->
  steps (n + fuel) t c keep w es s h =
  steps fuel t c keep w' es' (s + n) (if keep then h ++ worlds w es n else h).
Proof.
  induction n as [|n IH]; intros w es s h fuel w' es' Q P.
  - simpl in P. injection P as -> ->. simpl. rewrite Nat.add_0_r.
    destruct keep; rewrite ?app_nil_r; reflexivity.
  - assert (P1 : exists w1 es1, progress w es 1 = Some (w1, es1)).
    { assert (N : progress w es 1 <> None).
      { apply (progress_back w es (S n) 1); [lia|congruence]. }
      destruct (progress w es 1) as [[a b]|]; [eauto|congruence]. }
    destruct P1 as (w1 & es1 & P1).
    assert (P1' := P1).
    destruct (Q 0) as (d & Od & Td); [lia|]. unfold observed in Od. simpl in Od.
    cbn [Nat.add run_steps]. cbn [progress] in P1.
    destruct (eval_all evaluate es w) as [[es2 d2]|]; [|discriminate]. simpl in Od.
    injection Od as ->. rewrite Td.
    destruct (plan w) as [wp|]; [|discriminate].
    destruct (execute wp) as [we|]; [|discriminate]. simpl in P1. injection P1 as -> ->.
    rewrite (IH w1 es1 (S s) _ fuel w' es').
    + rewrite (worlds_shift _ _ _ _ _ P1').
      replace (s + S n) with (S s + n) by lia.
      destruct keep; auto. now rewrite <- app_assoc.
    + intros k Hk. unfold quiet. rewrite (observed_shift _ _ _ _ _ P1'). apply Q. lia.
    + now rewrite (progress_shift _ _ _ _ _ P1').
Qed.

Lemma steps_inv fuel : forall w es s h,
  (forall k, k < fuel -> quiet w es k) /\ (forall k, k <= fuel -> progress w es k <> None) /\
    steps fuel t c keep w es s h = CFuel
  \/ exists n w' es', n < fuel /\ (forall k, k < n -> quiet w es k) /\
     progress w es n = Some (w', es') /\
     ~ (quiet w es n /\ progress w es (S n) <> None).
Proof.
  induction fuel as [|fuel IH]; intros w es s h.
  - left. split; [intros; lia|]. split; [|reflexivity]. intros k Hk. replace k with 0 by lia. discriminate.
  - destruct (IH w es s h) as [(Q & P & _)|(n & w' & es' & Hn & R)].
    + destruct (progress w es fuel) as [[w' es']|] eqn:Pf; [|exfalso; eapply (P fuel); auto].
      assert (Dq : quiet w es fuel /\ progress w es (S fuel) <> None \/
                   ~ (quiet w es fuel /\ progress w es (S fuel) <> None)).
      { assert (D1 : quiet w es fuel \/ ~ quiet w es fuel).
        { unfold quiet. destruct (observed w es fuel) as [d|].
          - destruct (is_terminal t (bc_set c) d) as [[|x l]|] eqn:Et.
            + left; eauto.
            + right. intros (d' & E & E'). congruence.
            + right. intros (d' & E & E'). congruence.
          - right. intros (d' & E & _). discriminate. }
        destruct (progress w es (S fuel)); destruct D1; [left|right|right|right]; intuition congruence. }
      destruct Dq as [[Dq Dp]|Dq].
      * left. assert (Q' : forall k, k < S fuel -> quiet w es k).
        { intros k Hk. destruct (Nat.eq_dec k fuel) as [->|]; auto. apply Q; lia. }
        split; [exact Q'|]. split.
        { intros k Hk. destruct (Nat.eq_dec k (S fuel)) as [->|]; auto. apply P; lia. }
        destruct (progress w es (S fuel)) as [[w2 es2]|] eqn:P2; [|congruence].
        replace (S fuel) with (S fuel + 0) by lia.
        rewrite (steps_skip (S fuel) w es s h 0 w2 es2 Q' P2). reflexivity.
      * right. exists fuel, w', es'. repeat split; auto.
    + right. exists n, w', es'. split; [lia|exact R].
Qed.

End Run.
