(** C72-C79: benchmark configurations, runs, checkpoints, resuming. *)
From Coq Require Import String List Arith Lia Bool Permutation.
Import ListNotations.
From Verif Require Import Model_Benchmark Model_BenchRun Proof_Benchmark Proof_BenchMerge Proof_BenchRun.
Local Open Scope string_scope.
Local Open Scope nat_scope.
Local Open Scope list_scope.

(* ================================================================== *)
(** * C72: the configurations that are run *)

Section C72.
Context {B Sc Val : Type}.
Variable dataset_desc : Sc -> dct Val.

(** Scenario [i] is requested. *)
Definition requested (num : option nat) (i : nat) : Prop :=
  match num with None | Some 0 => True | Some n => i < n end.

Lemma take_num_in {A} num (l : list A) i x :
  In (i, x) (take_num num (enum l)) <-> nth_error l i = Some x /\ requested num i.
Proof.
  assert (E : forall k (l : list A), In (i, x) (combine (seq k (length l)) l) <->
              k <= i /\ nth_error l (i - k) = Some x).
  { intros k l0. revert k. induction l0 as [|y r IH]; intros k; simpl.
    - split; [tauto|]. intros [_ Ei]. destruct (i - k); discriminate.
    - rewrite IH. split.
      + intros [Ey|[L N]].
        * inversion Ey; subst. rewrite Nat.sub_diag. simpl. auto.
        * split; [lia|]. replace (i - k) with (S (i - S k)) by lia. exact N.
      + intros [L N]. destruct (Nat.eq_dec i k) as [->|Ne].
        * rewrite Nat.sub_diag in N. simpl in N. left; congruence.
        * right. split; [lia|]. replace (i - k) with (S (i - S k)) in N by lia. exact N. }
  assert (E0 := E 0 l). rewrite Nat.sub_0_r in E0.
  unfold take_num, requested, enum. destruct num as [[|n]|]; try (rewrite E0; intuition lia).
  clear E0.
  assert (F : forall m k (l : list A), In (i, x) (firstn m (combine (seq k (length l)) l)) <->
              k <= i < k + m /\ nth_error l (i - k) = Some x).
  { intros m k l0. revert m k. induction l0 as [|y r IH]; intros m k; destruct m; simpl.
    - split; [tauto|lia].
    - split; [tauto|]. intros [_ Ei]. destruct (i - k); discriminate.
    - split; [tauto|lia].
    - rewrite IH. split.
      + intros [Ey|[L N]].
        * inversion Ey; subst. rewrite Nat.sub_diag. simpl. split; [lia|auto].
        * split; [lia|]. replace (i - k) with (S (i - S k)) by lia. exact N.
      + intros [L N]. destruct (Nat.eq_dec i k) as [->|Ne].
        * rewrite Nat.sub_diag in N. simpl in N. left; congruence.
        * right. split; [lia|]. replace (i - k) with (S (i - S k)) in N by lia. exact N. }
  rewrite F, Nat.sub_0_r. intuition lia.
Qed.

(** The configuration indices are 0, 1, 2, ... in order: unique and dense. *)
Theorem C72_indices num (behs : list B) db :
  map bc_idx (create_configs dataset_desc num behs db)
  = seq 0 (length (create_configs dataset_desc num behs db)).
Proof. apply numbered_nodup. apply create_spec. Qed.

(** Every behaviour is paired with every requested scenario of every set, and
    nothing else is created. *)
Theorem C72_configs_complete num (behs : list B) db b sc i name desc :
  (exists x, In x (create_configs dataset_desc num behs db) /\
     bc_behavior x = b /\ bc_scenario x = sc /\ bc_scen_idx x = i /\ bc_set x = name /\
     bc_desc x = desc)
  <-> In b behs /\ exists s, In s db /\ ss_name s = name /\
        nth_error (ss_scenarios s) i = Some sc /\ requested num i /\
        desc = dupdate (ss_desc s) (dataset_desc sc).
Proof.
  destruct (create_spec dataset_desc num behs db) as [_ E].
  assert (In (b, sc, i, name, desc) (map view (create_configs dataset_desc num behs db)) <->
     exists x, In x (create_configs dataset_desc num behs db) /\
     bc_behavior x = b /\ bc_scenario x = sc /\ bc_scen_idx x = i /\ bc_set x = name /\
     bc_desc x = desc).
  { rewrite in_map_iff. unfold view. split.
    - intros (x & Ex & I). inversion Ex; subst. exists x. auto 10.
    - intros (x & I & <- & <- & <- & <- & <-). exists x. auto. }
  rewrite <- H, E. rewrite in_flat_map. split.
  - intros (b' & Ib & I). apply in_flat_map in I as (s & Is & I).
    apply in_map_iff in I as ([i' sc'] & Ei & I). simpl in Ei. inversion Ei; subst.
    apply take_num_in in I as [I1 I2]. split; auto. exists s. auto 10.
  - intros (Ib & s & Is & <- & Hn & Hr & ->). exists b. split; auto. apply in_flat_map.
    exists s. split; auto. apply in_map_iff. exists (i, sc). split; auto. now apply take_num_in.
Qed.

(** The same scenarios, in the same order, for every behaviour, one behaviour
    after the other. *)
Theorem C72_configs_per_behavior num (behs : list B) db :
  map (fun x => (bc_behavior x, bc_set x, bc_scen_idx x)) (create_configs dataset_desc num behs db)
  = flat_map (fun b => map (fun x => (b, bc_set x, bc_scen_idx x))
                           (create_configs dataset_desc num [b] db)) behs.
Proof.
  assert (V : forall (l : list (bconfig B Sc Val)),
     map (fun x => (bc_behavior x, bc_set x, bc_scen_idx x)) l =
     map (fun v => let '(b, _, i, n, _) := v in (b, n, i)) (map view l)).
  { intros l. rewrite map_map. reflexivity. }
  rewrite V. destruct (create_spec dataset_desc num behs db) as [_ ->].
  rewrite !flat_map_concat_map, concat_map, map_map. f_equal. apply map_ext. intros b.
  assert (V2 : forall (l : list (bconfig B Sc Val)), (forall x, In x l -> bc_behavior x = b) ->
     map (fun x => (b, bc_set x, bc_scen_idx x)) l =
     map (fun v => let '(b, _, i, n, _) := v in (b, n, i)) (map view l)).
  { intros l Hl. rewrite map_map. apply map_ext_in. intros x I. simpl. now rewrite Hl. }
  rewrite V2.
  - destruct (create_spec dataset_desc num [b] db) as [_ ->]. simpl. now rewrite app_nil_r.
  - intros x I.
    assert (J : In (bc_behavior x) [b]).
    { eapply (proj1 (C72_configs_complete num [b] db (bc_behavior x) (bc_scenario x) (bc_scen_idx x)
               (bc_set x) (bc_desc x))). eauto 10. }
    destruct J as [->|[]]; auto.
Qed.

(** A scenario generation is treated as a database of one set. *)
Theorem C72_generation num (behs : list B) cls (scs : list Sc) :
  create_configs_gen num behs cls scs =
  create_configs (fun _ => []) num behs
    [{| ss_scenarios := scs; ss_name := cls; ss_desc := @nil (string * Val) |}].
Proof. apply create_gen_same. Qed.

End C72.

Example C72_nonvacuous :
  map (fun x => (bc_idx x, bc_behavior x, bc_set x, bc_scen_idx x))
    (create_configs (B:=nat) (Sc:=nat) (Val:=nat) (fun _ => []) (Some 2) [7; 8]
       [{| ss_scenarios := [1; 2; 3]; ss_name := "a"; ss_desc := [] |};
        {| ss_scenarios := [4]; ss_name := "b"; ss_desc := [] |}])
  = [(0, 7, "a", 0); (1, 7, "a", 1); (2, 7, "b", 0); (3, 8, "a", 0); (4, 8, "a", 1); (5, 8, "b", 0)].
Proof. reflexivity. Qed.

(* ================================================================== *)
(** * C73: one configuration *)

Section C73.
Context {B Sc V W Ev : Type}.
Variable get_world : Sc -> option W.
Variable set_behavior : Sc -> B -> W -> option W.
Variable make_evaluators : Sc -> string -> option (list (string * Ev)).
Variable evaluate : Ev -> W -> option (Ev * V).
Variable plan execute : W -> option W.
Variable behavior_desc : B -> string * dct (@cell V).
Variable behavior_none : B -> bool.
Variable t : @terminal_when V.
Variable keep : bool.
Variable c : bconfig B Sc (@cell V).

Notation runc := (run_config get_world set_behavior make_evaluators evaluate plan execute
                    behavior_desc behavior_none).

(** The configuration starts in world [w] with evaluators [es]. *)
Definition starts (w : W) (es : list (string * Ev)) : Prop :=
  exists w0, get_world (bc_scenario c) = Some w0 /\
    (if behavior_none (bc_behavior c) then w = w0
     else set_behavior (bc_scenario c) (bc_behavior c) w0 = Some w) /\
    make_evaluators (bc_scenario c) (bc_set c) = Some es.

Notation observed := (observed evaluate plan execute).
Notation progress := (progress evaluate plan execute).
Notation quiet := (quiet evaluate plan execute t c).

Definition row_of (n : nat) (d : dct V) (why : cell) : dct cell := make_row behavior_desc c n d why.

(** The worlds a kept history holds: the initial one and one per step. *)
Definition history_of (w : W) (es : list (string * Ev)) (n : nat) : list W :=
  if keep then w :: worlds evaluate plan execute w es n else [].

Lemma starts_eq w es fuel : starts w es ->
  runc fuel t keep c = run_steps evaluate plan execute behavior_desc fuel t c keep w es 0
                          (if keep then [w] else []).
Proof.
  intros (w0 & E0 & E1 & E2). unfold run_config. rewrite E0.
  destruct (behavior_none (bc_behavior c)); [subst|rewrite E1]; rewrite E2; reflexivity.
Qed.

(** The simulation stops at the first step at which a criterion holds, and the
    row reports this step, what the evaluators said at it and the criteria that
    hold. *)
Theorem C73_stops_at_first w es n d why fuel :
  starts w es -> n < fuel -> (forall k, k < n -> quiet w es k) ->
  observed w es n = Some d -> is_terminal t (bc_set c) d = Some why -> why <> [] ->
  runc fuel t keep c = CTuple (row_of n d (CWhy why)) (history_of w es n).
Proof.
  intros St Hf Q O T Nw. rewrite (starts_eq w es fuel St).
  unfold Proof_BenchRun.observed in O.
  destruct (progress w es n) as [[w' es']|] eqn:P; [|discriminate].
  replace fuel with (n + S (fuel - S n)) by lia.
  rewrite (steps_skip evaluate plan execute behavior_desc t c keep n w es 0 _ (S (fuel - S n)) w' es' Q P).
  cbn [run_steps]. destruct (eval_all evaluate es' w') as [[es2 d2]|]; [|discriminate].
  simpl in O. injection O as ->. rewrite T. destruct why as [|x l]; [congruence|].
  unfold row_of, history_of. destruct keep; reflexivity.
Qed.

(** Every row comes from such a stop or from an exception of an evaluator, of
    PlanAgents or of Execute, at a step before which no criterion held. *)
Theorem C73_row_means fuel row hist :
  runc fuel t keep c = CTuple row hist ->
  exists w es n d, starts w es /\ (forall k, k < n -> quiet w es k) /\
    hist = history_of w es n /\ progress w es n <> None /\
    ((exists why, row = row_of n d (CWhy why) /\ observed w es n = Some d /\
        is_terminal t (bc_set c) d = Some why /\ why <> []) \/
     (row = row_of n d raised /\
        (observed w es n = None /\ d = [] \/
         observed w es n = Some d /\ quiet w es n /\ progress w es (S n) = None))).
Proof.
  intros E.
  assert (St : exists w es, starts w es).
  { unfold run_config in E. destruct (get_world (bc_scenario c)) as [w0|] eqn:E0; [|discriminate].
    destruct (behavior_none (bc_behavior c)) eqn:Eb.
    - destruct (make_evaluators (bc_scenario c) (bc_set c)) as [es|] eqn:Em; [|discriminate].
      exists w0, es, w0. rewrite Eb. auto.
    - destruct (set_behavior (bc_scenario c) (bc_behavior c) w0) as [w|] eqn:Es; [|discriminate].
      destruct (make_evaluators (bc_scenario c) (bc_set c)) as [es|] eqn:Em; [|discriminate].
      exists w, es, w0. rewrite Eb. auto. }
  destruct St as (w & es & St). rewrite (starts_eq w es fuel St) in E.
  destruct (steps_inv evaluate plan execute behavior_desc t c keep fuel w es 0 (if keep then [w] else []))
    as [(_ & _ & E')|(n & w' & es' & Hn & Q & P & Nq)]; [congruence|].
  replace fuel with (n + S (fuel - S n)) in E by lia.
  rewrite (steps_skip evaluate plan execute behavior_desc t c keep n w es 0 _ (S (fuel - S n)) w' es' Q P) in E.
  assert (Hh : (if keep then (if keep then [w] else []) ++ worlds evaluate plan execute w es n
                else if keep then [w] else []) = history_of w es n).
  { unfold history_of. destruct keep; reflexivity. }
  rewrite Hh in E. cbn [run_steps] in E.
  assert (Oe : observed w es n = option_map snd (eval_all evaluate es' w')).
  { unfold Proof_BenchRun.observed. now rewrite P. }
  assert (Pe : progress w es (S n) =
     match eval_all evaluate es' w', plan w' with
          | Some (es2, _), Some w1 => option_map (fun w2 => (w2, es2)) (execute w1)
          | _, _ => None
          end).
  { cbn [Proof_BenchRun.progress]. now rewrite P. }
  destruct (eval_all evaluate es' w') as [[es2 d]|] eqn:Eva.
  - simpl in Oe. exists w, es, n, d. split; [exact St|]. split; [exact Q|].
    destruct (is_terminal t (bc_set c) d) as [[|x l]|] eqn:T; [| |discriminate].
    + assert (Qn : quiet w es n) by (exists d; auto).
      destruct (plan w') as [wp|].
      * destruct (execute wp) as [we|].
        -- exfalso. apply Nq. split; auto. rewrite Pe. discriminate.
        -- simpl in Pe. inversion E; subst. split; auto. split; [congruence|]. right. split; auto.
      * inversion E; subst. split; auto. split; [congruence|]. right. split; auto.
    + inversion E; subst. split; auto. split; [congruence|]. left. exists (x :: l).
      repeat split; auto. discriminate.
  - simpl in Oe. inversion E; subst. exists w, es, n, []. split; [exact St|]. split; [exact Q|].
    split; auto. split; [congruence|]. right. split; auto.
Qed.

(** There is no bound on the number of steps: while no criterion holds and
    nothing raises, the configuration keeps running. *)
Theorem C73_runs_on w es :
  starts w es -> (forall k, quiet w es k) -> forall fuel, runc fuel t keep c = CFuel.
Proof.
  intros St Q fuel. rewrite (starts_eq w es fuel St).
  destruct (steps_inv evaluate plan execute behavior_desc t c keep fuel w es 0 (if keep then [w] else []))
    as [(_ & _ & E')|(n & w' & es' & Hn & _ & P & Nq)]; auto.
  exfalso. apply Nq. split; auto. destruct (Q (S n)) as (d & O & _).
  unfold Proof_BenchRun.observed in O. destruct (progress w es (S n)); congruence.
Qed.

(** A kept history has one entry more than the reported number of steps. *)
Theorem C73_history_length w es n :
  keep = true -> progress w es n <> None -> length (history_of w es n) = S n.
Proof.
  intros Hk P. unfold history_of. rewrite Hk. cbn [length]. f_equal. unfold worlds.
  assert (G : forall m k, k + m <= S n ->
     length (flat_map (fun i => match progress w es i with Some (w', _) => [w'] | None => [] end)
                      (seq k m)) = m).
  { induction m as [|m IH]; intros k Hkm; simpl; auto.
    destruct (progress w es k) as [[w' es']|] eqn:E.
    - simpl. f_equal. apply IH. lia.
    - exfalso. apply (progress_back evaluate plan execute w es n k) in P; [congruence|lia]. }
  apply G. lia.
Qed.

(** What the columns of a row hold.  Later entries win: an evaluator may shadow
    any column but "Terminal". *)
Theorem C73_row_columns n (d : dct V) why k :
  NoDup (map fst d) -> NoDup (map fst (bc_desc c)) ->
  NoDup (map fst (snd (behavior_desc (bc_behavior c)))) ->
  dget (row_of n d why) k =
    if String.eqb k "Terminal" then Some why
    else match dget d k with
         | Some v => Some (CVal v)
         | None => if String.eqb k "step" then Some (CNat n)
                   else match dget (snd (behavior_desc (bc_behavior c))) k with
                        | Some v => Some v
                        | None => if String.eqb k "behavior"
                                  then Some (CStr (fst (behavior_desc (bc_behavior c))))
                                  else match dget (bc_desc c) k with
                                       | Some v => Some v
                                       | None => if String.eqb k "config_idx" then Some (CNat (bc_idx c))
                                                 else if String.eqb k "scen_set" then Some (CStr (bc_set c))
                                                 else if String.eqb k "scen_idx" then Some (CNat (bc_scen_idx c))
                                                 else None
                                       end
                        end
         end.
Proof.
  intros Nd Nc Nb. unfold row_of, make_row.
  destruct (String.eqb_spec k "Terminal") as [->|N1]; [apply dget_dset_same|].
  rewrite dget_dset_other by auto.
  assert (Keys : map fst (map (fun kv => (fst kv, CVal (snd kv))) d) = map fst d)
    by (rewrite map_map; reflexivity).
  rewrite dget_dupdate by (rewrite Keys; auto).
  assert (Ed : dget (map (fun kv => (fst kv, CVal (snd kv))) d) k = option_map CVal (dget d k)).
  { clear. induction d as [|[j v] r IH]; simpl; auto. destruct (String.eqb j k); auto. }
  rewrite Ed. destruct (dget d k) as [v|]; [reflexivity|]. simpl.
  destruct (String.eqb_spec k "step") as [->|N2]; [apply dget_dset_same|].
  rewrite dget_dset_other by auto.
  unfold as_dict. destruct (behavior_desc (bc_behavior c)) as [bn bd]. simpl fst. simpl snd.
  cbn [snd] in Nb.
  assert (NDu : NoDup (map fst (dupdate [("behavior", CStr bn)] bd))).
  { assert (G : forall (b a : dct (@cell V)), NoDup (map fst a) -> NoDup (map fst (dupdate a b))).
    { induction b as [|[j v] r IH]; intros a Na; auto. unfold dupdate. cbn [fold_left]. apply IH.
      clear - Na. simpl. induction a as [|[x y] a IH]; simpl in *.
      - constructor; [auto|constructor].
      - inversion Na; subst. destruct (String.eqb_spec x j) as [->|N]; simpl; [constructor; auto|].
        constructor; auto. intros I. apply H1. clear - I N.
        induction a as [|[p q] a IH]; simpl in *; [destruct I; congruence|].
        destruct (String.eqb_spec p j) as [->|]; simpl in *; tauto. }
    apply G. simpl. constructor; [auto|constructor]. }
  rewrite dget_dupdate by exact NDu. rewrite dget_dupdate by exact Nb.
  destruct (dget bd k) as [v|]; [reflexivity|].
  assert (Eb : dget [("behavior", CStr (V:=V) bn)] k
             = if String.eqb k "behavior" then Some (CStr bn) else None).
  { rewrite String.eqb_sym. reflexivity. }
  rewrite Eb. destruct (String.eqb_spec k "behavior") as [->|N3]; [reflexivity|].
  rewrite dget_dupdate by exact Nc.
  destruct (dget (bc_desc c) k) as [v|]; [reflexivity|].
  change (dupdate [] [("config_idx", CNat (bc_idx c)); ("scen_set", CStr (bc_set c)); ("scen_idx", CNat (bc_scen_idx c))])
    with [("config_idx", CNat (V:=V) (bc_idx c)); ("scen_set", CStr (bc_set c)); ("scen_idx", CNat (bc_scen_idx c))].
  rewrite (String.eqb_sym k "config_idx"), (String.eqb_sym k "scen_set"), (String.eqb_sym k "scen_idx").
  reflexivity.
Qed.

(** The reported reason: the criteria whose function holds of the reported
    evaluation, in the order given; exactly these. *)
Theorem C73_terminal_why (cr : @criteria V) (d : dct V) why :
  holding cr d = Some why -> NoDup (map fst cr) ->
  (forall n f, In (n, f) cr ->
     exists v b, dget d n = Some v /\ f v = Some b /\ (In n why <-> b = true)) /\
  (exists keepn : string -> bool, why = filter keepn (map fst cr)).
Proof.
  revert why. induction cr as [|[n f] r IH]; intros why E ND; simpl in E.
  - injection E as <-. split; [intros n f []|]. exists (fun _ => true). reflexivity.
  - destruct (dget d n) as [v|] eqn:Ed; [|discriminate].
    destruct (f v) as [b|] eqn:Ef; [|discriminate].
    destruct (holding r d) as [l|] eqn:El; [|discriminate]. injection E as <-.
    simpl in ND. inversion ND; subst. destruct (IH l eq_refl H2) as [I1 (kp & I2)].
    assert (Nl : ~ In n l) by (rewrite I2, filter_In; tauto).
    split.
    + intros n' f' [E|I].
      * inversion E; subst. exists v, b. split; auto. split; auto.
        destruct b; simpl; [tauto|]. split; [tauto|discriminate].
      * destruct (I1 n' f' I) as (v' & b' & A1 & A2 & A3). exists v', b'. split; auto. split; auto.
        assert (n' <> n) by (intros ->; apply H1; apply in_map_iff; exists (n, f'); auto).
        destruct b; simpl; [|auto]. rewrite <- A3. split; [intros [E|]; [congruence|auto]|auto].
    + exists (fun x => if String.eqb x n then b else kp x). simpl. rewrite String.eqb_refl.
      assert (Ef2 : filter (fun x => if String.eqb x n then b else kp x) (map fst r) = l).
      { rewrite I2. apply filter_ext_in. intros x Ix.
        destruct (String.eqb_spec x n) as [->|]; auto. tauto. }
      rewrite Ef2. destruct b; reflexivity.
Qed.

End C73.

(** Criteria per scenario set: exactly one name must occur in the set's name. *)
Theorem C73_terminal_per_set {V} (l : list (string * @criteria V)) set d :
  is_terminal (TPerSet l) set d =
    match filter (fun kc => contains (fst kc) set) l with
    | [kc] => holding (snd kc) d
    | _ => None
    end
  /\ forall a b, contains a b = true <-> exists x y, b = (x ++ a ++ y)%string.
Proof. split; [reflexivity|apply contains_spec]. Qed.

(** A toy simulation: the world counts, the evaluator reports the count. *)
Definition toy_conf : bconfig nat nat (@cell nat) :=
  {| bc_idx := 5; bc_behavior := 0; bc_scenario := 0; bc_scen_idx := 3; bc_set := "set"; bc_desc := [] |}.
Definition toy_run (fuel : nat) :=
  run_config (B:=nat) (Sc:=nat) (V:=nat) (W:=nat) (Ev:=unit) (fun s => Some s) (fun _ _ w => Some w)
    (fun _ _ => Some [("count", tt)]) (fun e w => Some (e, w)) (fun w => Some w) (fun w => Some (S w))
    (fun _ => ("beh", [])) (fun _ => true) fuel
    (TFlat [("count", fun v => Some (3 <=? v))]) true toy_conf.

Example C73_nonvacuous :
  toy_run 3 = CFuel /\
  toy_run 10 = CTuple
    [("config_idx", CNat 5); ("scen_set", CStr "set"); ("scen_idx", CNat 3); ("behavior", CStr "beh");
     ("step", CNat 3); ("count", CVal 3); ("Terminal", CWhy ["count"])] [0; 1; 2; 3].
Proof. split; reflexivity. Qed.

(* ================================================================== *)
(** * C76: which exceptions are confined to a row *)

Section C76.
Context {B Sc V W Ev : Type}.
Variable get_world : Sc -> option W.
Variable set_behavior : Sc -> B -> W -> option W.
Variable make_evaluators : Sc -> string -> option (list (string * Ev)).
Variable evaluate : Ev -> W -> option (Ev * V).
Variable plan execute : W -> option W.
Variable behavior_desc : B -> string * dct (@cell V).
Variable behavior_none : B -> bool.
Variable t : @terminal_when V.
Variable keep : bool.

Notation execc := (exec_config get_world set_behavior make_evaluators evaluate plan execute
                    behavior_desc behavior_none).

(** No description or evaluator name shadows the index column. *)
Definition idx_unshadowed (c : bconfig B Sc (@cell V)) : Prop :=
  NoDup (map fst (bc_desc c)) /\ NoDup (map fst (snd (behavior_desc (bc_behavior c)))) /\
  ~ In "config_idx" (map fst (bc_desc c)) /\
  ~ In "config_idx" (map fst (snd (behavior_desc (bc_behavior c)))) /\
  (forall es, make_evaluators (bc_scenario c) (bc_set c) = Some es ->
     NoDup (map fst es) /\ ~ In "config_idx" (map fst es)).

Lemma eval_all_keys es w es' d : eval_all (Ev:=Ev) (V:=V) (W:=W) evaluate es w = Some (es', d) ->
  map fst es' = map fst es /\ map fst d = map fst es.
Proof.
  revert es' d. induction es as [|[n e] r IH]; intros es' d E; simpl in E.
  - inversion E; auto.
  - destruct (evaluate e w) as [[e' v]|]; [|discriminate].
    destruct (eval_all evaluate r w) as [[r' d']|]; [|discriminate].
    inversion E; subst. destruct (IH _ _ eq_refl) as [A1 A2]. simpl. now rewrite A1, A2.
Qed.

Lemma progress_keys w es k w' es' :
  progress evaluate plan execute w es k = Some (w', es') -> map fst es' = map fst es.
Proof.
  revert w' es'. induction k as [|k IH]; intros w' es' E; simpl in E; [inversion E; auto|].
  destruct (progress evaluate plan execute w es k) as [[w1 es1]|]; [|discriminate].
  destruct (eval_all evaluate es1 w1) as [[es2 d]|] eqn:Ee; [|discriminate].
  destruct (plan w1); [|discriminate]. destruct (execute w0); [|discriminate].
  simpl in E. inversion E; subst. apply eval_all_keys in Ee as [-> _]. eauto.
Qed.

(** What an evaluation reports lies under the names of the evaluators. *)
Lemma observed_keys w es n d :
  observed evaluate plan execute w es n = Some d -> map fst d = map fst es.
Proof.
  intros O. unfold observed in O.
  destruct (progress evaluate plan execute w es n) as [[w' es']|] eqn:P; [|discriminate].
  destruct (eval_all evaluate es' w') as [[es2 d2]|] eqn:Ee; [|discriminate].
  simpl in O. injection O as ->. apply eval_all_keys in Ee as [_ ->].
  eapply progress_keys; eauto.
Qed.

Lemma row_config_idx c w es n d why :
  idx_unshadowed c -> starts get_world set_behavior make_evaluators behavior_none c w es ->
  d = [] \/ map fst d = map fst es ->
  dget (row_of behavior_desc c n d why) "config_idx" = Some (CNat (bc_idx c)) /\
  dget (row_of behavior_desc c n d why) "Terminal" = Some why.
Proof.
  intros (N1 & N2 & U1 & U2 & U3) (w0 & _ & _ & Em) Kd.
  destruct (U3 es Em) as [Ne Ue].
  assert (Nd : NoDup (map fst d) /\ ~ In "config_idx" (map fst d)).
  { destruct Kd as [->| ->]; [|auto]. simpl. split; [constructor|auto]. }
  destruct Nd as [Nd Ud]. rewrite !C73_row_columns by auto. split; [|reflexivity].
  change (String.eqb "config_idx" "Terminal") with false.
  change (String.eqb "config_idx" "step") with false.
  change (String.eqb "config_idx" "behavior") with false. cbv iota.
  rewrite (proj1 (dget_none d "config_idx") Ud).
  rewrite (proj1 (dget_none _ "config_idx") U2), (proj1 (dget_none _ "config_idx") U1).
  reflexivity.
Qed.

(** A row belongs to its configuration: what the runner stores is found under
    the configuration's index. *)
Theorem C76_row_index fuel c r h :
  idx_unshadowed c -> execc fuel t keep c = Some (r, h) -> r_idx r = bc_idx c.
Proof.
  intros U. unfold exec_config.
  destruct (run_config get_world set_behavior make_evaluators evaluate plan execute behavior_desc
             behavior_none fuel t keep c) as [row hist|row| |] eqn:E; try discriminate.
  apply C73_row_means in E as (w & es & n & d & St & _ & _ & Pn & Hr).
  assert (Kd : d = [] \/ map fst d = map fst es).
  { destruct Hr as [(why & _ & O & _)|(_ & [[_ ->]|[O _]])]; auto; right; eapply observed_keys; eauto. }
  assert (Erow : exists why, row = row_of behavior_desc c n d why).
  { destruct Hr as [(why & -> & _)|(-> & _)]; eauto. }
  destruct Erow as (why & ->).
  destruct (row_config_idx c w es n d why U St Kd) as [-> _].
  intros E; inversion E; reflexivity.
Qed.

(** An exception of an evaluator, of planning or of execution ends the
    configuration with a row, "Terminal" = "exception_raised". *)
Theorem C76_confined fuel c w es n :
  idx_unshadowed c ->
  starts get_world set_behavior make_evaluators behavior_none c w es ->
  n < fuel -> (forall k, k < n -> quiet evaluate plan execute t c w es k) ->
  progress evaluate plan execute w es n <> None ->
  (observed evaluate plan execute w es n = None \/
   quiet evaluate plan execute t c w es n /\ progress evaluate plan execute w es (S n) = None) ->
  exists r h, execc fuel t keep c = Some (r, h) /\ r_idx r = bc_idx c /\
     dget (r_data r) "Terminal" = Some raised.
Proof.
  intros U St Hf Q Pn Hx.
  assert (E : exists d, (d = [] \/ map fst d = map fst es) /\
     run_config get_world set_behavior make_evaluators evaluate plan execute behavior_desc
             behavior_none fuel t keep c = CTuple (row_of behavior_desc c n d raised)
               (history_of evaluate plan execute keep w es n)).
  { assert (Ok : forall d, observed evaluate plan execute w es n = Some d -> map fst d = map fst es)
      by (intros; eapply observed_keys; eauto).
    rewrite (starts_eq get_world set_behavior make_evaluators evaluate plan execute behavior_desc
               behavior_none t keep c w es fuel St).
    destruct (progress evaluate plan execute w es n) as [[w' es']|] eqn:P; [|congruence].
    replace fuel with (n + S (fuel - S n)) by lia.
    rewrite (steps_skip evaluate plan execute behavior_desc t c keep n w es 0 _ (S (fuel - S n)) w' es' Q P).
    cbn [run_steps]. unfold quiet in Hx. unfold observed in Hx, Ok. rewrite P in Hx, Ok.
    cbn [progress] in Hx. rewrite P in Hx.
    unfold row_of, history_of.
    destruct (eval_all evaluate es' w') as [[es2 d]|].
    - destruct Hx as [Hx|[(d' & O & T) Hx]]; [discriminate|]. simpl in O. injection O as ->.
      rewrite T. exists d'. split; [right; now apply Ok|]. destruct (plan w') as [wp|].
      + destruct (execute wp); [discriminate|]. destruct keep; reflexivity.
      + destruct keep; reflexivity.
    - exists []. split; auto. destruct keep; reflexivity. }
  destruct E as (d & Kd & E). unfold exec_config. rewrite E.
  destruct (row_config_idx c w es n d raised U St Kd) as [-> Et].
  eexists _, _. split; [reflexivity|]. split; [reflexivity|exact Et].
Qed.

(** A criterion that raises, is missing, or a scenario set with not exactly one
    matching criteria set; an exception while creating the evaluators or setting
    the behavior; an exception of GetWorldState: none of these gives a row. *)
Theorem C76_not_confined fuel c :
  get_world (bc_scenario c) = None \/
  (exists w0, get_world (bc_scenario c) = Some w0 /\ behavior_none (bc_behavior c) = false /\
     set_behavior (bc_scenario c) (bc_behavior c) w0 = None) \/
  make_evaluators (bc_scenario c) (bc_set c) = None \/
  (exists w es n d, starts get_world set_behavior make_evaluators behavior_none c w es /\
     (forall k, k < n -> quiet evaluate plan execute t c w es k) /\
     observed evaluate plan execute w es n = Some d /\ is_terminal t (bc_set c) d = None) ->
  execc fuel t keep c = None.
Proof.
  intros Hx. unfold exec_config.
  destruct Hx as [E|[(w0 & E0 & Eb & Es)|[E|(w & es & n & d & St & Q & O & T)]]].
  - unfold run_config. now rewrite E.
  - unfold run_config. now rewrite E0, Eb, Es.
  - unfold run_config. rewrite E. destruct (get_world (bc_scenario c)) as [w|]; auto.
    destruct (behavior_none (bc_behavior c)); auto.
    destruct (set_behavior (bc_scenario c) (bc_behavior c) w); auto.
  - rewrite (starts_eq get_world set_behavior make_evaluators evaluate plan execute behavior_desc
               behavior_none t keep c w es fuel St).
    unfold observed in O.
    destruct (progress evaluate plan execute w es n) as [[w' es']|] eqn:P; [|discriminate].
    destruct (le_lt_dec fuel n) as [L|L].
    + destruct (steps_inv evaluate plan execute behavior_desc t c keep fuel w es 0 (if keep then [w] else []))
        as [(_ & _ & ->)|(m & w1 & es1 & Hm & Qm & Pm & Nq)]; auto.
      exfalso. apply Nq. split; [apply Q; lia|].
      apply (progress_back evaluate plan execute w es n (S m)); [lia|congruence].
    + replace fuel with (n + S (fuel - S n)) by lia.
      rewrite (steps_skip evaluate plan execute behavior_desc t c keep n w es 0 _ (S (fuel - S n)) w' es' Q P).
      cbn [run_steps]. destruct (eval_all evaluate es' w') as [[es2 d2]|]; [|discriminate].
      simpl in O. injection O as ->. now rewrite T.
Qed.

(** Without any terminal criterion the run does not simulate at all: the first
    configuration whose evaluators succeed ends the whole run with an exception. *)
Theorem C76_no_criteria fuel c w es d :
  starts get_world set_behavior make_evaluators behavior_none c w es ->
  observed evaluate plan execute w es 0 = Some d ->
  exec_config get_world set_behavior make_evaluators evaluate plan execute behavior_desc behavior_none
    (S fuel) TNone keep c = None /\
  run_config get_world set_behavior make_evaluators evaluate plan execute behavior_desc behavior_none
    (S fuel) TNone keep c = CRaise.
Proof.
  intros St O.
  assert (E : run_config get_world set_behavior make_evaluators evaluate plan execute behavior_desc behavior_none
    (S fuel) TNone keep c = CRaise).
  { rewrite (starts_eq get_world set_behavior make_evaluators evaluate plan execute behavior_desc
               behavior_none TNone keep c w es (S fuel) St).
    unfold observed in O. cbn [progress] in O. cbn [run_steps].
    destruct (eval_all evaluate es w) as [[es2 d2]|]; [reflexivity|discriminate]. }
  split; auto. unfold exec_config. now rewrite E.
Qed.

End C76.

(** ... and then the whole run ends with this exception: the configurations
    after it are not run and no result is returned.  What remains is the last
    checkpoint: the rows of a prefix of the configurations run so far. *)
Lemma run_loop_app {C D H} (nfiles : kind -> list (nat * item C H) -> nat)
    (exec : conf C -> option (row D * H)) name history every a b : forall idx rows hist done ck f,
  run_loop nfiles exec name history every (a ++ b) idx rows hist done ck f =
  bind (run_loop nfiles exec name history every a idx rows hist done ck)
    (fun '(rows, hist, done, ck) =>
       run_loop nfiles exec name history every b (length a + idx) rows hist done ck) f.
Proof.
  induction a as [|x r IH]; intros idx rows hist done ck f.
  - cbn. unfold bind, ret. destruct (run_loop nfiles exec name history every b idx rows hist done ck f) as [[? ?] ?].
    reflexivity.
  - cbn [app run_loop length Nat.add]. destruct (exec x) as [[rw h]|]; [|reflexivity].
    replace (S (length r + idx)) with (length r + S idx) by lia.
    destruct (due every (S idx)); [|apply IH].
    unfold bind at 1 2. unfold bind at 1.
    destruct (flush nfiles name history (rows ++ [rw]) (dict_set hist (c_idx x) h) (done ++ [x]) ck f)
      as [[t1 f1] [ck1|e]]; [|reflexivity].
    rewrite IH. unfold bind.
    destruct (run_loop nfiles exec name history every r (S idx) [] [] [] ck1 f1) as [[t2 f2] [[[[r2 h2] d2] c2]|e2]]; [|reflexivity].
    destruct (run_loop nfiles exec name history every b (length r + S idx) r2 h2 d2 c2 f2) as [[t3 f3] r3].
    now rewrite app_assoc.
Qed.

Theorem C76_aborts_run {C D H} (nfiles : kind -> list (nat * item C H) -> nat)
    (exec : conf C -> option (row D * H)) out name history every cs1 c cs2 ex f :
  nfiles_ok nfiles -> runs_ok exec out cs1 -> NoDup (map c_idx cs1) ->
  f (PCkpt name) = None -> exec c = None ->
  exists t f' kept lost,
    run nfiles exec name history every (cs1 ++ c :: cs2) ex f = (t, f', inr ConfigError) /\
    cs1 = kept ++ lost /\ valid f' (PCkpt name) (rows_of out kept) /\
    (forall x, x <> PCkpt name -> x <> PTmp name -> f' x = f x).
Proof.
  intros NF RO ND Fn Ex. unfold run. unfold bind at 1. rewrite run_loop_app.
  destruct (run_loop_ok nfiles exec out name history every f cs1 NF RO ND cs1 [] [] f
             (fresh_result (PCkpt name)) 0) as (t & f' & ck & fl & pe & E & Ec & Fr & Ck & _ & _); auto.
  { left. auto. }
  { repeat split. }
  cbn [rows_of hists_of map] in E. unfold bind at 1. rewrite E. cbn [run_loop]. rewrite Ex.
  eexists _, _, fl, pe. split; [reflexivity|]. split; [exact Ec|]. split; [|exact Fr].
  apply (ck_valid exec out name history f' fl); auto.
  intros x I. apply RO. rewrite Ec. apply in_or_app; auto.
Qed.

(** The toy simulation with a fault at the fourth step, in planning or in the
    criterion. *)
Definition toy_fault (plan : nat -> option nat) (crit : nat -> option bool) :=
  exec_config (B:=nat) (Sc:=nat) (V:=nat) (W:=nat) (Ev:=unit) (fun s => Some s) (fun _ _ w => Some w)
    (fun _ _ => Some [("count", tt)]) (fun e w => Some (e, w)) plan (fun w => Some (S w))
    (fun _ => ("beh", [])) (fun _ => true) 10
    (TFlat [("count", crit)]) false toy_conf.

Example C76_nonvacuous :
  (exists r, toy_fault (fun w => if w =? 3 then None else Some w) (fun v => Some (5 <=? v)) = Some (r, [])
     /\ r_idx r = 5 /\ dget (r_data r) "Terminal" = Some raised /\ dget (r_data r) "step" = Some (CNat 3)) /\
  toy_fault (fun w => Some w) (fun v => if v =? 3 then None else Some (5 <=? v)) = None /\
  (exists t f', run (D:=unit) (H:=unit) (fun _ _ => 1)
     (fun c => if c_idx c =? 1 then None else Some ({| r_idx := c_idx c; r_data := tt |}, tt))
     0 false (Some 1) [{| c_idx := 0; c_data := tt |}; {| c_idx := 1; c_data := tt |}] (fresh_result PMerged)
     (fun _ => None) = (t, f', inr ConfigError)).
Proof.
  split; [eexists; repeat split|]. split; [reflexivity|].
  eexists _, _. reflexivity.
Qed.

Example C76_no_criteria_nonvacuous :
  run_config (B:=nat) (Sc:=nat) (V:=nat) (W:=nat) (Ev:=unit) (fun s => Some s) (fun _ _ w => Some w)
    (fun _ _ => Some [("count", tt)]) (fun e w => Some (e, w)) (fun w => Some w) (fun w => Some (S w))
    (fun _ => ("beh", [])) (fun _ => true) 10 TNone false toy_conf = CRaise.
Proof.
  apply (C76_no_criteria (fun s => Some s) (fun _ _ w => Some w) (fun _ _ => Some [("count", tt)])
     (fun e w => Some (e, w)) (fun w => Some w) (fun w => Some (S w)) (fun _ => ("beh", [])) (fun _ => true)
     false 9 toy_conf (bc_scenario toy_conf) [("count", tt)] [("count", bc_scenario toy_conf)]).
  - exists (bc_scenario toy_conf). repeat split.
  - reflexivity.
Qed.

Print Assumptions C76_no_criteria.
Print Assumptions C76_row_index.
Print Assumptions C76_confined.
Print Assumptions C76_not_confined.
Print Assumptions C76_aborts_run.
Print Assumptions C72_indices.
Print Assumptions C72_configs_complete.
Print Assumptions C72_configs_per_behavior.
Print Assumptions C72_generation.
Print Assumptions C73_stops_at_first.
Print Assumptions C73_row_means.
Print Assumptions C73_runs_on.
Print Assumptions C73_history_length.
Print Assumptions C73_row_columns.
Print Assumptions C73_terminal_why.
Print Assumptions C73_terminal_per_set.
