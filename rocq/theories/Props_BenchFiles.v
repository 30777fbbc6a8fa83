(** C74, C75, C77-C79: result files, resuming, parallel runs, evaluator choice. *)
From Coq Require Import String List Arith Lia Bool Permutation.
Import ListNotations.
From Verif Require Import Model_Benchmark Model_BenchRun Proof_Benchmark Proof_BenchMerge Proof_BenchRun Props_Benchmark.
Local Open Scope string_scope.
Local Open Scope nat_scope.
Local Open Scope list_scope.

(** A toy: configurations and rows are numbers. *)
Definition tc (i : nat) : conf unit := {| c_idx := i; c_data := tt |}.
Definition tr (i : nat) : row unit := {| r_idx := i; r_data := tt |}.
Definition texec (c : conf unit) : option (row unit * unit) := Some (tr (c_idx c), tt).
Definition tout (c : conf unit) : row unit * unit := (tr (c_idx c), tt).
Definition one_file (k : kind) (l : list (nat * item unit unit)) : nat := 1.
Definition no_files : fs unit unit unit := fun _ => None.

Lemma toy_nfiles : nfiles_ok one_file.
Proof. intros k l N. unfold one_file. destruct l; [congruence|]. simpl. lia. Qed.
Lemma toy_runs cs : runs_ok texec tout cs.
Proof. intros c I. split; reflexivity. Qed.

Section Files.
Context {C D H : Type}.
Notation conf := (conf C).
Notation row := (row D).
Notation fs := (fs C D H).
Notation bres := (bres C D H).
Variable nfiles : kind -> list (nat * item C H) -> nat.

(* ================================================================== *)
(** * C74: what a run returns and writes *)

(** The rows stored in the archive at [p]. *)
Definition stored (f : fs) (p : path) (d : list row) : Prop :=
  exists z, f p = Some (Zip z) /\ z_res z = Some d.

(** One row per configuration, in the order of the configurations, followed by
    the rows of the existing result; the same rows on disk; nothing else on disk
    is touched and the temporary file is gone. *)
Theorem C74_rows (exec : conf -> option (row * H)) out name history every cs (ex : bres) (f : fs) :
  nfiles_ok nfiles -> runs_ok exec out cs -> NoDup (map c_idx cs) -> f (PCkpt name) = None ->
  existing_ok ex f cs ->
  exists t f' b, run nfiles exec name history every cs ex f = (t, f', inl b) /\
    get_data_frame b = map (fun c => fst (out c)) cs ++ get_data_frame ex /\
    (get_data_frame b <> [] -> stored f' (PCkpt name) (get_data_frame b)) /\
    f' (PTmp name) = None /\
    (forall x, x <> PCkpt name -> x <> PTmp name -> f' x = f x).
Proof.
  intros NF RO ND Fn EX.
  destruct (run_ok nfiles exec out name history every cs ex f NF RO ND Fn EX)
    as (t & f' & b & E & G & Bf & Bc & Bd & Fr & Tm & Ck & _).
  exists t, f', b. split; [exact E|]. split; [exact G|]. split; [|split; [exact Tm|exact Fr]].
  intros Nb. destruct Ck as [(-> & Ge & _)|(ms & Em & _)].
  - rewrite G, Ge in Nb. simpl in Nb. congruence.
  - exists {| z_res := Some (get_data_frame b); z_mem := ms |}. split; [exact Em|reflexivity].
Qed.

(** How often checkpoints are written and whether histories are kept changes
    nothing about the rows. *)
Theorem C74_checkpoints_irrelevant (exec : conf -> option (row * H)) out name cs (ex : bres) (f : fs)
    h1 h2 e1 e2 :
  nfiles_ok nfiles -> runs_ok exec out cs -> NoDup (map c_idx cs) -> f (PCkpt name) = None ->
  existing_ok ex f cs ->
  exists b1 b2, outcome_of (run nfiles exec name h1 e1 cs ex) f = inl b1 /\
    outcome_of (run nfiles exec name h2 e2 cs ex) f = inl b2 /\
    get_data_frame b1 = get_data_frame b2 /\ get_result_dict b1 = get_result_dict b2.
Proof.
  intros NF RO ND Fn EX.
  destruct (run_ok nfiles exec out name h1 e1 cs ex f NF RO ND Fn EX)
    as (t1 & f1 & b1 & E1 & G1 & _ & _ & D1 & _).
  destruct (run_ok nfiles exec out name h2 e2 cs ex f NF RO ND Fn EX)
    as (t2 & f2 & b2 & E2 & G2 & _ & _ & D2 & _).
  exists b1, b2. unfold outcome_of. rewrite E1, E2. repeat split; [congruence|].
  unfold get_result_dict. rewrite D1, D2.
  destruct (rows_of out cs ++ match get_data_frame ex with [] => [] | _ => get_result_dict (touch ex) end) eqn:Ed.
  - apply app_eq_nil in Ed as [Er _].
    assert (G : forall b : bres, b_dicts b = [] -> get_data_frame b = get_data_frame ex ->
        match b_df b with Some d => d | None => [] end = get_data_frame ex).
    { intros b Db Gb. unfold get_data_frame in Gb at 1. rewrite Db in Gb.
      destruct (b_df b); simpl in Gb; exact Gb. }
    rewrite Er in G1, G2. simpl in G1, G2.
    assert (Q1 := G b1 (eq_trans D1 eq_refl) G1). assert (Q2 := G b2 (eq_trans D2 eq_refl) G2).
    destruct (b_df b1), (b_df b2); congruence.
  - destruct (b_df b1), (b_df b2); reflexivity.
Qed.

(** What the written archive holds besides the rows: exactly the configurations
    run and, when kept, their histories. *)
Theorem C74_archive (exec : conf -> option (row * H)) out name history every cs (ex : bres) (f : fs) :
  nfiles_ok nfiles -> runs_ok exec out cs -> NoDup (map c_idx cs) -> f (PCkpt name) = None ->
  cs <> [] -> get_data_frame ex = [] -> b_confs ex = [] ->
  exists b z, outcome_of (run nfiles exec name history every cs ex) f = inl b /\
    final_fs (run nfiles exec name history every cs ex) f (PCkpt name) = Some (Zip z) /\
    Permutation (concat (map snd (of_kind Configs (z_mem z)))) (map (fun c => (c_idx c, ItC c)) cs) /\
    Permutation (concat (map snd (of_kind Histories (z_mem z))))
      (if history then map (fun c => (c_idx c, ItH (snd (out c)))) cs else []).
Proof.
  intros NF RO ND Fn Nc Ge Ce.
  destruct (run_ok nfiles exec out name history every cs ex f NF RO ND Fn (or_introl (conj Ge Ce)))
    as (t & f' & b & E & G & _ & _ & _ & _ & _ & Ck & _).
  destruct Ck as [(Ec & _)|(ms & Em & _ & _ & Cv & _)]; [congruence|].
  destruct (Cv Ge) as [C1 C2].
  eexists b, _. unfold outcome_of, final_fs. rewrite E. cbn [fst snd].
  split; [reflexivity|]. split; [exact Em|]. split; [exact C1|].
  unfold payload in C2. destruct history; [|exact C2].
  unfold hist_items, hists_of in C2. rewrite map_map in C2. exact C2.
Qed.

(** Running again in the directory of an earlier run, without merging, replaces
    the earlier rows. *)
Theorem C74_overwrites_refuted :
  exists b1 b2 f1,
    run one_file texec 0 false None [tc 0] (fresh_result PMerged) no_files = (fst (fst (run one_file texec 0 false None [tc 0] (fresh_result PMerged) no_files)), f1, inl b1) /\
    get_data_frame b1 = [tr 0] /\
    outcome_of (run one_file texec 0 false None [tc 1] (fresh_result PMerged)) f1 = inl b2 /\
    get_data_frame b2 = [tr 1] /\
    (exists z, final_fs (run one_file texec 0 false None [tc 1] (fresh_result PMerged)) f1 (PCkpt 0) = Some (Zip z)
       /\ z_res z = Some [tr 1] /\ map m_name (z_mem z) = [(Configs, [0]); (Configs, [1])]).
Proof.
  eexists _, _, _. split; [reflexivity|]. split; [reflexivity|]. split; [reflexivity|].
  split; [reflexivity|]. eexists. repeat split.
Qed.

(** The two views of one result can disagree: after extending a loaded result
    the list of dicts holds the new rows only. *)
Theorem C74_views_disagree_refuted (d e : list row) (f : fs) :
  d <> [] -> e <> [] -> (forall i, In i (map r_idx e) -> In i (map r_idx d) -> False) ->
  exists b,
    outcome_of (extend nfiles
      {| b_dicts := []; b_df := Some d; b_confs := []; b_hist := []; b_file := None |}
      {| b_dicts := e; b_df := None; b_confs := []; b_hist := []; b_file := None |} false) f = inl b /\
    get_data_frame b = d ++ e /\ get_result_dict b = e.
Proof.
  intros Nd Ne Dj. destruct d as [|d0 d]; [congruence|]. destruct e as [|e0 e]; [congruence|].
  unfold outcome_of, extend.
  change (get_indices {| b_dicts := e0 :: e; b_df := None; b_confs := []; b_hist := []; b_file := None |})
    with (r_idx e0 :: map r_idx e). cbv iota.
  change (get_indices {| b_dicts := []; b_df := Some (d0 :: d); b_confs := []; b_hist := []; b_file := None |})
    with (map r_idx (d0 :: d)).
  change (r_idx e0 :: map r_idx e) with (map r_idx (e0 :: e)).
  rewrite (proj2 (overlapb_false _ _)) by (intros i I J; eapply Dj; eauto).
  eexists. split; [reflexivity|].
  split.
  - unfold get_data_frame at 1. cbn [b_df b_dicts].
    match goal with |- (if ?x <? ?y then _ else _) = _ => destruct (Nat.ltb_spec x y) as [L|L] end;
      [|reflexivity].
    exfalso. unfold get_data_frame, touch, get_result_dict in L. cbn in L.
    rewrite ?app_length in L. cbn [length] in L. lia.
  - reflexivity.
Qed.

(* ================================================================== *)
(** * C75: interrupted and resumed runs *)

Section C75.
(** The interrupted process and the one that resumes; they may compute
    different results, for instance because the seed differs. *)
Variable exec exec2 : conf -> option (row * H).
Variable out out2 : conf -> row * H.

Lemma remaining cs n (ex : bres) :
  NoDup (map c_idx cs) -> runs_ok exec out cs ->
  Permutation (get_data_frame ex) (rows_of out (firstn n cs)) -> b_confs ex = [] ->
  configs_to_run cs ex = skipn n cs.
Proof.
  intros ND RO P Bc. unfold configs_to_run.
  assert (Ix : forall i, In i (get_indices ex) <-> In i (map c_idx (firstn n cs))).
  { intros i. rewrite (get_indices_rows ex _ eq_refl Bc).
    rewrite <- (rows_idx exec out (firstn n cs)).
    - split; intros I; (eapply Permutation_in; [|exact I]); apply Permutation_map; [exact P|symmetry; exact P].
    - intros c I. apply RO. rewrite <- (firstn_skipn n cs). apply in_or_app; auto. }
  assert (G : forall l1 l2 : list conf, NoDup (map c_idx (l1 ++ l2)) ->
     (forall i, In i (get_indices ex) <-> In i (map c_idx l1)) ->
     filter (fun c => negb (existsb (Nat.eqb (c_idx c)) (get_indices ex))) (l1 ++ l2) = l2).
  { intros l1 l2 N I. rewrite filter_app.
    assert (E1 : filter (fun c => negb (existsb (Nat.eqb (c_idx c)) (get_indices ex))) l1 = []).
    { assert (F : forall c, In c l1 -> negb (existsb (Nat.eqb (c_idx c)) (get_indices ex)) = false).
      { intros c Ic. apply negb_false_iff, existsb_exists. exists (c_idx c).
        split; [apply I, in_map, Ic|apply Nat.eqb_refl]. }
      clear - F. induction l1 as [|c l IH]; simpl; auto. rewrite F by (simpl; auto).
      apply IH. intros; apply F; simpl; auto. }
    assert (E2 : filter (fun c => negb (existsb (Nat.eqb (c_idx c)) (get_indices ex))) l2 = l2).
    { assert (F : forall c, In c l2 -> negb (existsb (Nat.eqb (c_idx c)) (get_indices ex)) = true).
      { intros c Ic. apply negb_true_iff, not_true_iff_false. rewrite existsb_exists.
        intros (j & Ij & Ej). apply Nat.eqb_eq in Ej. subst j. apply I in Ij.
        rewrite map_app in N. apply NoDup_app_inv in N as (_ & _ & Dj).
        apply (Dj (c_idx c)); auto. now apply in_map. }
      clear - F. induction l2 as [|c l IH]; simpl; auto. rewrite F by (simpl; auto).
      f_equal. apply IH. intros; apply F; simpl; auto. }
    now rewrite E1, E2. }
  rewrite <- (firstn_skipn n cs) at 1. apply G; [rewrite firstn_skipn; auto|exact Ix].
Qed.

(** Resuming a fresh run interrupted anywhere either raises or ends with exactly
    one row per configuration: those of the interrupted process for a prefix,
    its own for the rest; the rows on disk are the same. *)
Theorem C75_resume_exactly_once name name2 h1 h2 e1 e2 cs (f0 s : fs) g :
  nfiles_ok nfiles -> runs_ok exec out cs -> runs_ok exec2 out2 cs -> NoDup (map c_idx cs) ->
  (forall x, f0 x = None) ->
  In s (crash_states (run nfiles exec name h1 e1 cs (fresh_result PMerged)) f0) ->
  glob_of s g ->
  (exists e, outcome_of (resume nfiles exec2 g name2 h2 e2 cs) s = inr e) \/
  (exists n b, outcome_of (resume nfiles exec2 g name2 h2 e2 cs) s = inl b /\
     Permutation (get_data_frame b)
       (map (fun c => fst (out c)) (firstn n cs) ++ map (fun c => fst (out2 c)) (skipn n cs)) /\
     Permutation (map r_idx (get_data_frame b)) (map c_idx cs) /\
     (cs <> [] -> stored (final_fs (resume nfiles exec2 g name2 h2 e2 cs) s) (PCkpt name2) (get_data_frame b))).
Proof.
  intros NF RO RO2 ND F0 Is Gl.
  assert (Sn : snap out name f0 cs s).
  { destruct (run_ok nfiles exec out name h1 e1 cs (fresh_result PMerged) f0 NF RO ND)
      as (t & f' & b & E & _ & _ & _ & _ & _ & _ & _ & Sn); auto.
    { left; auto. }
    unfold crash_states in Is. rewrite E in Is. cbn [fst] in Is. destruct Is as [<-|Is].
    - split; [auto|]. right. right. exists [], [], cs. split; [reflexivity|].
      split; [left; auto|]. left; left; auto.
    - eapply Forall_forall; [apply Sn; reflexivity|exact Is]. }
  destruct (snap_merge nfiles exec out name cs f0 s g NF RO ND F0 Sn Gl)
    as [(e & Em)|(n & t & f' & b & Em & P & Bf & Bc & Vm & Em2)].
  - left. exists e. unfold resume, outcome_of in *. unfold bind.
    destruct (merge_checkpoints nfiles g s) as [[t1 f1] r]. cbn [snd] in Em. subst r. reflexivity.
  - right. exists n.
    assert (Rem := remaining cs n b ND RO P Bc).
    assert (Hs : runs_ok exec2 out2 (skipn n cs)).
    { intros c I. apply RO2. rewrite <- (firstn_skipn n cs). apply in_or_app; auto. }
    assert (Hf : runs_ok exec out (firstn n cs)).
    { intros c I. apply RO. rewrite <- (firstn_skipn n cs). apply in_or_app; auto. }
    assert (Ns := ND). rewrite <- (firstn_skipn n cs), map_app in Ns.
    apply NoDup_app_inv in Ns as (Nf & Ns & Dj).
    assert (Ib : forall i, In i (map r_idx (get_data_frame b)) -> In i (map c_idx (firstn n cs))).
    { intros i I. rewrite <- (rows_idx exec out) by auto.
      eapply Permutation_in; [apply Permutation_map; exact P|exact I]. }
    destruct (run_ok nfiles exec2 out2 name2 h2 e2 (skipn n cs) b f' NF Hs Ns)
      as (t2 & f2 & b2 & E2 & G2 & _ & _ & _ & _ & _ & Ck & _).
    { apply Em2. discriminate. }
    { unfold existing_ok. destruct (get_data_frame b) as [|r0 r] eqn:Gb; [left; auto|right].
      split; [discriminate|]. split; [auto|]. split.
      - destruct Vm as [[Ve _]|Vm]; [discriminate|exact Vm].
      - intros i I J. eapply Dj; eauto. }
    assert (Er : resume nfiles exec2 g name2 h2 e2 cs s = (t ++ t2, f2, inl b2)).
    { unfold resume, bind. rewrite Em. rewrite Rem, E2. reflexivity. }
    exists b2. unfold outcome_of, final_fs. rewrite Er. cbn [fst snd].
    assert (Pb : Permutation (get_data_frame b2) (rows_of out (firstn n cs) ++ rows_of out2 (skipn n cs))).
    { rewrite G2. etransitivity; [apply Permutation_app_comm|]. apply Permutation_app_tail, P. }
    split; [reflexivity|]. split; [exact Pb|]. split.
    + etransitivity; [apply Permutation_map; exact Pb|].
      rewrite map_app, (rows_idx exec out), (rows_idx exec2 out2) by auto.
      rewrite <- map_app, firstn_skipn. reflexivity.
    + intros Nc. destruct Ck as [(Ea & Eb & _)|(ms & Ea & _)].
      * exfalso. rewrite Eb in P. apply Permutation_nil in P. unfold rows_of in P.
        apply map_eq_nil in P. rewrite <- (firstn_skipn n cs), P, Ea in Nc. simpl in Nc. congruence.
      * eexists. split; [exact Ea|reflexivity].
Qed.

(** A completed run can be resumed with a longer list of configurations: only
    the new ones are run. *)
Theorem C75_resume_completed name name2 h1 h2 e1 e2 cs new (f0 : fs) g :
  nfiles_ok nfiles -> runs_ok exec out cs -> runs_ok exec2 out2 new ->
  NoDup (map c_idx (cs ++ new)) -> cs <> [] -> (forall x, f0 x = None) ->
  let s := final_fs (run nfiles exec name h1 e1 cs (fresh_result PMerged)) f0 in
  glob_of s g ->
  g = [PCkpt name] /\
  exists b, outcome_of (resume nfiles exec2 g name2 h2 e2 (cs ++ new)) s = inl b /\
    get_data_frame b = map (fun c => fst (out2 c)) new ++ map (fun c => fst (out c)) cs.
Proof.
  intros NF RO RO2 ND Nc F0 s Gl. rewrite map_app in ND.
  apply NoDup_app_inv in ND as (N1 & N2 & Dj).
  destruct (run_ok nfiles exec out name h1 e1 cs (fresh_result PMerged) f0 NF RO N1)
      as (t & f' & b & E & G & _ & _ & _ & Fr & Tm & Ck & _); auto.
  { left; auto. }
  assert (Es : s = f') by (unfold s, final_fs; rewrite E; reflexivity).
  clearbody s. subst s. change (get_data_frame (fresh_result PMerged)) with (@nil row) in *.
  rewrite app_nil_r in G.
  destruct Ck as [(Ea & _)|(ms & Em & Ne & Ik & _ & _)]; [congruence|].
  assert (Eg : g = [PCkpt name]).
  { destruct Gl as [Ng Hg].
    assert (A : forall x, In x g <-> x = PCkpt name).
    { intros x. rewrite Hg. split; [|intros ->; congruence].
      destruct (path_eqb x (PCkpt name)) eqn:Ex; [now apply path_eqb_eq in Ex|].
      apply path_eqb_neq in Ex. intros Hx. exfalso. apply Hx.
      destruct (path_eqb x (PTmp name)) eqn:Et; [apply path_eqb_eq in Et; congruence|].
      apply path_eqb_neq in Et. rewrite Fr; auto. }
    destruct g as [|a [|b0 g]].
    - exfalso. destruct (proj2 (A (PCkpt name)) eq_refl).
    - f_equal. apply A. simpl; auto.
    - exfalso. assert (a = PCkpt name) by (apply A; simpl; auto).
      assert (b0 = PCkpt name) by (apply A; simpl; auto). subst.
      inversion Ng; subst. simpl in *; tauto. }
  split; [exact Eg|].
  destruct (merge_ok nfiles f' g [rows_of out cs] NF) as (t2 & f2 & m & Em2 & Gm & Bf & Bc & Vm & Fm & _); auto.
  { rewrite Fr by discriminate. apply F0. }
  { subst g. constructor; [|constructor]. eexists. split; [exact Em|].
    rewrite <- G. repeat split; auto. }
  { simpl. rewrite app_nil_r, (rows_idx exec) by auto. exact N1. }
  simpl in Gm, Vm. rewrite app_nil_r in Gm, Vm.
  assert (Rem : configs_to_run (cs ++ new) m = new).
  { rewrite <- (firstn_all cs) in Gm.
    assert (Ix : forall i, In i (get_indices m) <-> In i (map c_idx cs)).
    { intros i. rewrite (get_indices_rows m _ eq_refl Bc), Gm, firstn_all, (rows_idx exec) by auto. tauto. }
    unfold configs_to_run. rewrite filter_app.
    assert (E1 : forall l : list conf, (forall c, In c l -> In (c_idx c) (map c_idx cs)) ->
       filter (fun c => negb (existsb (Nat.eqb (c_idx c)) (get_indices m))) l = []).
    { induction l as [|c l IH]; intros Hl; simpl; auto.
      replace (existsb (Nat.eqb (c_idx c)) (get_indices m)) with true; [simpl; apply IH; intros; apply Hl; simpl; auto|].
      symmetry. apply existsb_exists. exists (c_idx c). split; [apply Ix, Hl; simpl; auto|apply Nat.eqb_refl]. }
    assert (E2 : forall l : list conf, (forall c, In c l -> ~ In (c_idx c) (map c_idx cs)) ->
       filter (fun c => negb (existsb (Nat.eqb (c_idx c)) (get_indices m))) l = l).
    { induction l as [|c l IH]; intros Hl; simpl; auto.
      replace (existsb (Nat.eqb (c_idx c)) (get_indices m)) with false; [simpl; f_equal; apply IH; intros; apply Hl; simpl; auto|].
      symmetry. apply not_true_iff_false. rewrite existsb_exists. intros (j & Ij & Ej).
      apply Nat.eqb_eq in Ej. subst j. apply (Hl c); simpl; auto. now apply Ix. }
    rewrite E1 by (intros; now apply in_map). rewrite E2; [reflexivity|].
    intros c I J. eapply Dj; [exact J|now apply in_map]. }
  destruct (run_ok nfiles exec2 out2 name2 h2 e2 new m f2 NF RO2 N2)
      as (t3 & f3 & b3 & E3 & G3 & _).
  { apply Fm. discriminate. }
  { right. rewrite Gm. split.
    - unfold rows_of. intros Ee. apply map_eq_nil in Ee. congruence.
    - split; [auto|]. split; [destruct Vm as [[Ve _]|Vm]; [|exact Vm]|].
      + unfold rows_of in Ve. apply map_eq_nil in Ve. congruence.
      + intros i I J. rewrite (rows_idx exec) in J by auto. eapply Dj; eauto. }
  exists b3. split.
  - unfold outcome_of, resume, bind. rewrite Em2, Rem, E3. reflexivity.
  - rewrite G3, Gm. reflexivity.
Qed.

(** A crash while merging loses nothing: in every intermediate state either all
    checkpoint files are untouched or the merged file holds all their rows. *)
Theorem C75_merge_crash_safe (f : fs) g ds :
  nfiles_ok nfiles -> f PMerged = None -> glob_of f g ->
  Forall2 (fun p d => exists z, f p = Some (Zip z) /\ wf_zip z d) g ds ->
  NoDup (map r_idx (concat ds)) ->
  forall s, In s (crash_states (merge_checkpoints nfiles g) f) ->
    (forall p, p <> PMerged -> s p = f p) \/ concat ds = [] \/ stored s PMerged (concat ds).
Proof.
  intros NF Fm Gl F2 ND s Is.
  destruct (merge_ok nfiles f g ds NF Fm Gl F2 ND) as (t & f' & b & E & _ & _ & _ & _ & _ & Tr).
  unfold crash_states in Is. rewrite E in Is. cbn [fst] in Is. destruct Is as [<-|Is]; [auto|].
  apply (proj1 (Forall_forall _ _) Tr) in Is. destruct Is as [A|[[Ee _]|(z & Ez & Wz & _)]]; auto.
  right. right. exists z. auto.
Qed.

(** The last state of a program is one of its recorded states. *)
Definition tracked {A} (m : M C D H A) : Prop := forall f, In (final_fs m f) (crash_states m f).

Lemma tracked_ret {A} (a : A) : tracked (ret a).
Proof. intros f. left. reflexivity. Qed.
Lemma tracked_raise {A} e : tracked (raise (A:=A) e).
Proof. intros f. left. reflexivity. Qed.
Lemma tracked_get : tracked get.
Proof. intros f. left. reflexivity. Qed.
Lemma tracked_step g : tracked (step g).
Proof. intros f. right. left. reflexivity. Qed.
Lemma tracked_bind {A B} (m : M C D H A) (k : A -> M C D H B) :
  tracked m -> (forall a, tracked (k a)) -> tracked (bind m k).
Proof.
  intros Tm Tk f. specialize (Tm f). unfold final_fs, crash_states, bind in *.
  destruct (m f) as [[t f'] [a|e]]; [|exact Tm]. cbn [fst snd] in *.
  specialize (Tk a f'). unfold final_fs, crash_states in Tk.
  destruct (k a f') as [[t' f''] r]. cbn [fst snd] in *.
  destruct Tk as [Tk|Tk]; [subst f''|].
  - destruct Tm as [Tm|Tm]; [left; exact Tm|right; apply in_or_app; auto].
  - right. apply in_or_app; auto.
Qed.

Ltac tracked :=
  repeat (first
    [ apply tracked_ret | apply tracked_raise | apply tracked_get | apply tracked_step
    | apply tracked_bind; [|intros] | assumption
    | match goal with |- tracked (match ?x with _ => _ end) => destruct x end
    | match goal with |- tracked (let '(_, _) := ?x in _) => destruct x end ]).

Lemma tracked_write p z : tracked (write_zip p z).
Proof. unfold write_zip. tracked. Qed.
Lemma tracked_remove p : tracked (remove_results p).
Proof. unfold remove_results. tracked. Qed.
Lemma tracked_dump b p dc dh ap : tracked (dump nfiles b p dc dh ap).
Proof. unfold dump. tracked; try apply tracked_remove; try apply tracked_write. Qed.
Lemma tracked_extend a b fl : tracked (extend nfiles a b fl).
Proof. unfold extend. tracked; try apply tracked_remove; try apply tracked_write; try apply tracked_dump. Qed.
Lemma tracked_loop name history every cs : forall idx rows hist done ck,
  tracked (run_loop nfiles exec name history every cs idx rows hist done ck).
Proof.
  induction cs as [|c r IH]; intros; cbn [run_loop]; [apply tracked_ret|].
  unfold flush. tracked; try apply tracked_dump; try apply tracked_extend; apply IH.
Qed.

(** Refuted: progress is not recoverable from most interrupted runs.  Killed
    while running a configuration after the first checkpoint was written, the
    directory holds the checkpoint and the last temporary file, which repeats
    its rows: resuming raises. *)
Theorem C75_killed_not_resumable_refuted name name2 h1 h2 k e2 cs cs2 rest (f0 : fs) g :
  nfiles_ok nfiles -> runs_ok exec out cs -> NoDup (map c_idx cs) ->
  (forall x, f0 x = None) -> S k <= length cs ->
  let s := final_fs (run_loop nfiles exec name h1 (Some (S k)) cs 0 [] [] [] (fresh_result (PCkpt name))) f0 in
  glob_of s g ->
  In s (crash_states (run nfiles exec name h1 (Some (S k)) (cs ++ rest) (fresh_result PMerged)) f0) /\
  exists e, outcome_of (resume nfiles exec2 g name2 h2 e2 cs2) s = inr e.
Proof.
  intros NF RO ND F0 Hk s Gl.
  destruct (killed_merge nfiles exec out name h1 (Some (S k)) cs f0 k NF RO ND F0 eq_refl Hk g s eq_refl Gl) as (e & Ee).
  split.
  - destruct (tracked_loop name h1 (Some (S k)) cs 0 [] [] [] (fresh_result (PCkpt name)) f0) as [T|T].
    + left. exact T.
    + right. unfold run. unfold bind at 1. rewrite run_loop_app. unfold bind at 1.
      fold s in T.
      destruct (run_loop nfiles exec name h1 (Some (S k)) cs 0 [] [] [] (fresh_result (PCkpt name)) f0)
        as [[t f1] [[[[r1 h] d] ck]|x]]; [|exact T].
      cbn [fst] in T.
      destruct (run_loop nfiles exec name h1 (Some (S k)) rest (length cs + 0) r1 h d ck f1)
        as [[t2 f2] [[[[r2 hh2] d2] ck2]|x]]; [|cbn [fst]; apply in_or_app; auto].
      match goal with |- In _ (fst (fst (match ?m with _ => _ end))) => destruct m as [[t3 f3] r3] end.
      cbn [fst]. rewrite <- app_assoc. apply in_or_app; auto.
  - exists e. unfold outcome_of in *. unfold resume, bind.
    destruct (merge_checkpoints nfiles g s) as [[t1 f1] r]. cbn [snd] in Ee. subst r. reflexivity.
Qed.

(** Refuted: a directory that holds a merged result with rows can not be merged
    again, so no run can be resumed twice. *)
Theorem C75_second_resume_refuted name h e cs (f : fs) g d :
  glob_of f g -> stored f PMerged d -> d <> [] ->
  exists x, outcome_of (resume nfiles exec2 g name h e cs) f = inr x.
Proof.
  intros Gl (z & Fz & Rz) Nd.
  destruct (merge_again_raises nfiles f g z d Gl Fz Rz Nd) as (x & Ex).
  exists x. unfold outcome_of in *. unfold resume, bind.
  destruct (merge_checkpoints nfiles g f) as [[t1 f1] r]. cbn [snd] in Ex. subst r. reflexivity.
Qed.

End C75.

(* ================================================================== *)
(** * C77: the parallel runner *)

(** Actor [i] of [n] gets every [n]-th configuration starting with the [i]-th;
    together the actors get every configuration once. *)
Theorem C77_split n (cs : list conf) :
  Permutation (concat (actor_split (S n) cs)) cs /\
  length (actor_split (S n) cs) = S n /\
  forall i j, i <= n ->
    nth_error (nth i (actor_split (S n) cs) []) j = nth_error cs (i + j * S n).
Proof.
  split; [apply every_nth_perm|]. split.
  - unfold actor_split. rewrite map_length, seq_length. reflexivity.
  - intros i j Hi. unfold actor_split.
    rewrite (nth_indep _ [] (every_nth (S n) 0 cs)) by (rewrite map_length, seq_length; lia).
    rewrite (map_nth (fun i => every_nth (S n) i cs)).
    rewrite seq_nth by lia. cbn [Nat.add]. now apply every_nth_nth.
Qed.

(** The parallel run returns the rows of the sequential run, in another order. *)
Theorem C77_rows (exec : conf -> option (row * H)) out n history every cs (ex : bres) (f : fs) :
  nfiles_ok nfiles -> runs_ok exec out cs -> NoDup (map c_idx cs) ->
  (forall j, f (PCkpt j) = None) -> existing_ok ex f cs -> b_confs ex = [] ->
  NoDup (map r_idx (get_data_frame ex)) ->
  exists b, outcome_of (run_mp nfiles exec (S n) history every cs ex) f = inl b /\
    Permutation (get_data_frame b) (map (fun c => fst (out c)) cs ++ get_data_frame ex) /\
    (get_data_frame b <> [] ->
       stored (final_fs (run_mp nfiles exec (S n) history every cs ex) f) (PCkpt 0) (get_data_frame b)).
Proof.
  intros NF RO ND Fn EX Cx NDx.
  destruct (run_mp_ok nfiles exec out history every n cs ex f NF RO ND Fn EX Cx NDx)
    as (t & f' & b & E & _ & P & V & _).
  exists b. unfold outcome_of, final_fs. rewrite E. cbn [fst snd]. split; [reflexivity|].
  split; [exact P|]. intros Nb. destruct V as [[Ve _]|(z & Ez & Wz & _)]; [congruence|].
  exists z. auto.
Qed.

(** With fewer CPUs than one actor needs there is no actor and nothing is run. *)
Theorem C77_no_actor (exec : conf -> option (row * H)) history every cs (f : fs) :
  exists b, outcome_of (run_mp nfiles exec 0 history every cs (fresh_result PMerged)) f = inl b /\
    get_data_frame b = [].
Proof. eexists. split; reflexivity. Qed.

(** Refuted: the directory of a parallel run can not be merged, because the
    actors' checkpoint files stay beside the combined one. *)
Theorem C77_not_resumable_refuted (exec : conf -> option (row * H)) out n history every cs (f : fs) g :
  nfiles_ok nfiles -> runs_ok exec out cs -> NoDup (map c_idx cs) -> cs <> [] ->
  (forall x, f x = None) ->
  let s := final_fs (run_mp nfiles exec (S n) history every cs (fresh_result PMerged)) f in
  glob_of s g -> exists e, outcome_of (merge_checkpoints nfiles g) s = inr e.
Proof.
  intros NF RO ND Nc F0 s Gl.
  destruct (run_mp_ok nfiles exec out history every n cs (fresh_result PMerged) f NF RO ND)
    as (t & f' & b & E & G & P & V & Fm & F2); auto.
  { left; auto. } { constructor. }
  assert (Es : s = f') by (unfold s, final_fs; rewrite E; reflexivity). clearbody s. subst s.
  change (get_data_frame (fresh_result PMerged)) with (@nil row) in *. rewrite app_nil_r in P.
  unfold outcome_of. destruct (merge_checkpoints nfiles g f') as [[t1 f1] [m|e]] eqn:Em; [|exists e; reflexivity].
  exfalso.
  assert (Fm0 : f' PMerged = None) by (rewrite Fm; apply F0).
  destruct (merge_sound nfiles f' g t1 f1 m Fm0 Gl Em) as (b' & ds & _ & Rd & _ & Dj).
  (* the first configuration is in the combined file and in the file of actor 0 *)
  destruct cs as [|c cs]; [congruence|].
  destruct V as [[Ve _]|(z0 & E0 & W0)].
  { rewrite Ve in P. apply Permutation_nil in P. discriminate. }
  cbn [seq] in F2. unfold actor_split in F2. cbn [map seq] in F2.
  inversion F2 as [|? ? ? ? Ha _]; subst.
  destruct Ha as [Ha|(z1 & E1 & W1)]; [simpl in Ha; discriminate|].
  assert (I0 : In (c_idx c) (map r_idx (get_data_frame b))).
  { eapply Permutation_in; [apply Permutation_map; symmetry; exact P|].
    rewrite (rows_idx exec) by auto. simpl; auto. }
  assert (I1 : In (c_idx c) (map r_idx (rows_of out (every_nth (S n) 0 (c :: cs))))).
  { simpl. left. apply RO. simpl; auto. }
  assert (G0 : In (PCkpt 0) g) by (apply Gl; congruence).
  assert (G1 : In (PCkpt 1) g) by (apply Gl; congruence).
  destruct W0 as [W0 _]. destruct W1 as [W1 _].
  assert (R0 : reads f' (PCkpt 0) (get_data_frame b)) by (exists z0; auto).
  assert (R1 : reads f' (PCkpt 1) (rows_of out (every_nth (S n) 0 (c :: cs)))) by (exists z1; auto).
  clear - Rd Dj G0 G1 R0 R1 I0 I1.
  induction Rd as [|p d g ds Hr Rd IH]; [destruct G0|].
  inversion Dj as [|? ? Hd Dj']; subst.
  assert (K : forall q e, In q g -> reads f' q e -> disjoint_rows d e).
  { intros q e Iq Re. clear IH Dj Dj' G0 G1. induction Rd as [|p' d' g ds Hr' Rd IH]; [destruct Iq|].
    inversion Hd; subst. destruct Iq as [<-|Iq]; [|now apply IH].
    rewrite (reads_inj f' p' e d'); auto. }
  destruct G0 as [->|G0], G1 as [G1|G1]; try discriminate.
  - assert (d = get_data_frame b) by (eapply reads_inj; eauto). subst d.
    eapply (K _ _ G1 R1); eauto.
  - subst p. assert (d = rows_of out (every_nth (S n) 0 (c :: cs))) by (eapply reads_inj; eauto). subst d.
    eapply (K _ _ G0 R0); eauto.
  - now apply IH.
Qed.

(* ================================================================== *)
(** * C78: archives of configurations *)

Lemma dict_sets_new {V} (l : list (nat * V)) : forall d, NoDup (map fst (d ++ l)) ->
  fold_left (fun d kv => dict_set d (fst kv) (snd kv)) l d = d ++ l.
Proof.
  induction l as [|[k v] l IH]; intros d N; simpl; [now rewrite app_nil_r|].
  rewrite dict_set_new.
  - rewrite IH; rewrite <- app_assoc; auto.
  - rewrite map_app in N. apply NoDup_app_inv in N as (_ & _ & Dj). intros I.
    apply (Dj k); simpl; auto.
Qed.

Lemma load_all_gen (ms : list (member C H)) : forall d, NoDup (map fst (d ++ payload ms)) ->
  fold_left (fun d m => fold_left (fun d kv => dict_set d (fst kv) (snd kv)) (snd m) d) ms d
    = d ++ payload ms.
Proof.
  induction ms as [|m ms IH]; intros d N; simpl; [now rewrite app_nil_r|].
  unfold payload in *. cbn [map concat] in *.
  rewrite dict_sets_new.
  - rewrite IH; rewrite <- app_assoc; auto.
  - rewrite app_assoc, map_app in N. apply NoDup_app_inv in N. tauto.
Qed.

(** Dumping a result with its configurations (and histories) to a file and
    loading the configurations back gives the configurations again; the rows are
    stored too. *)
Theorem C78_roundtrip (b : bres) p dh (f : fs) :
  nfiles_ok nfiles -> NoDup (map c_idx (b_confs b)) -> NoDup (map fst (b_hist b)) ->
  b_file b = None \/ b_file b = Some p ->
  exists b' z, outcome_of (dump nfiles b p true dh false) f = inl b' /\
    final_fs (dump nfiles b p true dh false) f p = Some (Zip z) /\
    z_res z = Some (get_data_frame b) /\ get_data_frame b' = get_data_frame b /\
    Permutation (load_benchmark_configs [] (z_mem z) None) (b_confs b) /\
    Permutation (load_and_merge Histories (z_mem z) [])
      (if dh then map (fun kh => (fst kh, ItH (snd kh))) (b_hist b) else []).
Proof.
  intros NF Nc Nh Bf.
  destruct (dump_kind_ok nfiles true Configs (conf_items (H:=H) (b_confs b)) [] NF)
    as (n1 & E1 & K1 & _ & P1).
  { now rewrite conf_items_keys. } { intros i _ []. }
  simpl app in E1.
  destruct (dump_kind_ok nfiles dh Histories (hist_items (C:=C) (b_hist b)) n1 NF)
    as (n2 & E2 & K2 & _ & P2).
  { now rewrite hist_items_keys. }
  { intros i _. rewrite of_kind_other; [intros []|]. intros m I. rewrite K1 by auto. discriminate. }
  assert (Ed : exists t, dump nfiles b p true dh false f =
     (t, upd (upd f p (Some Corrupt)) p (Some (Zip {| z_res := Some (get_data_frame b); z_mem := n1 ++ n2 |})),
      inl {| b_dicts := b_dicts b; b_df := Some (get_data_frame b); b_confs := b_confs b;
             b_hist := b_hist b; b_file := Some p |})).
  { unfold dump, bind, get. destruct Bf as [->| ->]; rewrite ?path_eqb_refl;
      cbn -[upd path_eqb dump_kind]; rewrite E1, E2; eexists; reflexivity. }
  destruct Ed as (t & Ed). unfold outcome_of, final_fs. rewrite Ed. cbn [fst snd].
  eexists _, _. split; [reflexivity|]. split; [apply upd_same|]. split; [reflexivity|].
  split.
  { unfold get_data_frame at 1. cbn [b_df b_dicts].
    destruct (Nat.ltb_spec (length (get_data_frame b)) (length (b_dicts b))) as [L|L]; auto.
    assert (Le := dicts_le b). lia. }
  cbn [z_mem].
  assert (O1 : of_kind Configs (n1 ++ n2) = n1).
  { rewrite of_kind_app, (of_kind_same Configs n1) by auto.
    rewrite (of_kind_other Configs n2), app_nil_r; auto. intros m I. rewrite K2 by auto. discriminate. }
  assert (O2 : of_kind Histories (n1 ++ n2) = n2).
  { rewrite of_kind_app, (of_kind_same Histories n2) by auto.
    rewrite (of_kind_other Histories n1); auto. intros m I. rewrite K1 by auto. discriminate. }
  split.
  - unfold load_benchmark_configs, load_and_merge, files_to_load. rewrite O1.
    rewrite (load_all_gen n1 []).
    + cbn [app]. rewrite (Permutation_flat_map item_conf P1). unfold conf_items.
      rewrite flat_map_concat_map, map_map. simpl. rewrite <- flat_map_concat_map.
      clear. induction (b_confs b) as [|c l IH]; simpl; auto.
    + cbn [app]. eapply Permutation_NoDup; [apply Permutation_map; symmetry; exact P1|].
      now rewrite conf_items_keys.
  - unfold load_and_merge, files_to_load. rewrite O2. rewrite (load_all_gen n2 []).
    + cbn [app]. exact P2.
    + cbn [app]. eapply Permutation_NoDup; [apply Permutation_map; symmetry; exact P2|].
      destruct dh; [now rewrite hist_items_keys|constructor].
Qed.

(** Loading selected indices from an archive finds every requested one that is
    stored and reads nothing that is not. *)
Theorem C78_load_selected (ms : list (member C H)) k idxs :
  idxs <> [] -> NoDup (map fst (concat (map snd (of_kind k ms)))) ->
  (forall i x, In i idxs -> In (i, x) (concat (map snd (of_kind k ms))) ->
     In (i, x) (load_and_merge k ms idxs)) /\
  (forall i x, In (i, x) (load_and_merge k ms idxs) ->
     exists m, In m ms /\ fst m = k /\ In (i, x) (snd m) /\ exists j, In j idxs /\ In j (map fst (snd m))).
Proof.
  intros Ni N.
  set (sel := fun m : member C H => existsb (fun i => existsb (Nat.eqb i) (map fst (snd m))) idxs).
  assert (E : load_and_merge k ms idxs = payload (filter sel (of_kind k ms))).
  { assert (Ef : files_to_load k ms idxs = filter sel (of_kind k ms))
      by (unfold files_to_load, sel; destruct idxs; [congruence|reflexivity]).
    unfold load_and_merge. rewrite Ef. rewrite load_all_gen; [reflexivity|]. cbn [app].
    clear - N. unfold payload. induction (of_kind k ms) as [|m l IH]; simpl; [constructor|].
    simpl in N. rewrite map_app in N. apply NoDup_app_inv in N as (N1 & N2 & Dj).
    destruct (sel m); [|auto]. simpl. rewrite map_app.
    assert (Q : forall x, In x (map fst (concat (map snd (filter sel l)))) -> In x (map fst (concat (map snd l)))).
    { intros x I. apply in_map_iff in I as (y & <- & I). apply in_map.
      apply in_concat in I as (z & Iz & Iy). apply in_map_iff in Iz as (m' & <- & Im).
      apply filter_In in Im as [Im _]. apply in_concat. exists (snd m'). split; auto. now apply in_map. }
    clear - N1 N2 Dj Q IH. specialize (IH N2).
    induction (map fst (snd m)) as [|a l1 IHl]; simpl; auto.
    inversion N1; subst. constructor.
    - rewrite in_app_iff. intros [I|I]; [auto|]. apply (Dj a); simpl; auto.
    - apply IHl; auto. intros x I J. apply (Dj x); simpl; auto. }
  rewrite E. unfold payload. split.
  - intros i x Ii Ix. apply in_concat in Ix as (l & Il & Ix). apply in_map_iff in Il as (m & <- & Im).
    apply in_concat. exists (snd m). split; auto. apply in_map, filter_In. split; auto.
    unfold sel. apply existsb_exists. exists i. split; auto. apply existsb_exists. exists i.
    split; [apply in_map_iff; exists (i, x); auto|apply Nat.eqb_refl].
  - intros i x Ix. apply in_concat in Ix as (l & Il & Ix). apply in_map_iff in Il as (m & <- & Im).
    apply filter_In in Im as [Im Sm]. apply of_kind_in in Im as [Im Ik]. exists m. repeat split; auto.
    unfold sel in Sm. apply existsb_exists in Sm as (j & Ij & Ej). exists j. split; auto.
    apply existsb_exists in Ej as (j' & Ij' & Ej'). apply Nat.eqb_eq in Ej'. now subst.
Qed.

(** Refuted: asking for configurations that are all loaded already loads the
    whole archive again. *)
Theorem C78_reload_refuted (have : list conf) (ms : list (member C H)) idxs :
  idxs <> [] -> (forall i, In i idxs -> In i (map c_idx have)) ->
  NoDup (map fst (concat (map snd (of_kind Configs ms)))) ->
  load_benchmark_configs have ms (Some idxs)
    = have ++ flat_map item_conf (concat (map snd (of_kind Configs ms))).
Proof.
  intros Ni Ih N. unfold load_benchmark_configs. f_equal. f_equal.
  destruct idxs as [|i0 r]; [congruence|].
  assert (E : forall l, (forall i, In i l -> In i (map c_idx have)) ->
     filter (fun i => negb (existsb (Nat.eqb i) (map c_idx have))) l = []).
  { induction l as [|i l IH]; intros Hl; simpl; auto.
    replace (existsb (Nat.eqb i) (map c_idx have)) with true; [simpl; apply IH; intros; apply Hl; simpl; auto|].
    symmetry. apply existsb_exists. exists i. split; [apply Hl; simpl; auto|apply Nat.eqb_refl]. }
  rewrite E by exact Ih. unfold load_and_merge, files_to_load. now rewrite load_all_gen.
Qed.

(** An archive that would need more members than there are entries (an entry
    above the size limit) can not be written: the dump raises. *)
Theorem C78_too_large (b : bres) p (f : fs) :
  b_confs b <> [] ->
  length (b_confs b) < nfiles Configs (map (fun c => (c_idx c, ItC c)) (b_confs b)) ->
  b_file b = None \/ b_file b = Some p ->
  outcome_of (dump nfiles b p true false false) f = inr ValueError /\
  stored (final_fs (dump nfiles b p true false false) f) p (get_data_frame b).
Proof.
  intros Nb L Bf. change (map (fun c => (c_idx c, ItC c)) (b_confs b)) with (conf_items (H:=H) (b_confs b)) in L.
  assert (Es : split nfiles Configs (conf_items (b_confs b)) = inr ValueError).
  { unfold split. destruct (nfiles Configs (conf_items (b_confs b))) as [|nf] eqn:E; [lia|].
    unfold conf_items. rewrite map_length. rewrite Nat.div_small by lia. reflexivity. }
  assert (Ed : dump_kind nfiles true Configs (conf_items (b_confs b)) [] = ([], Some ValueError)).
  { unfold dump_kind. rewrite Es. destruct (b_confs b); [congruence|reflexivity]. }
  unfold outcome_of, final_fs, dump, bind, get.
  destruct Bf as [->| ->]; rewrite ?path_eqb_refl; cbn -[upd path_eqb dump_kind]; rewrite Ed; cbn -[upd path_eqb dump_kind];
    (split; [reflexivity|]); (eexists; split; [apply upd_same|reflexivity]).
Qed.

(** Merging archives never silently drops an entry: if a member of the other
    archive has the name of one already there, the merge raises. *)
Theorem C78_member_clash (self other : bres) p q zp zq (f : fs) (m m' : member C H) :
  b_confs self = [] -> b_hist self = [] -> b_file self = Some p -> b_file other = Some q -> q <> p ->
  f p = Some (Zip zp) -> f q = Some (Zip zq) ->
  In m (z_mem zp) -> In m' (z_mem zq) -> m_name m = m_name m' ->
  get_indices other <> [] ->
  outcome_of (extend nfiles self other true) f = inr ValueError.
Proof.
  intros Cc Ch Bp Bq Nqp Fp Fq Im Im' En Ni. unfold extend.
  destruct (get_indices other) as [|i is]; [congruence|].
  destruct (overlapb (i :: is) (get_indices self)); [reflexivity|].
  assert (MV : forall k (from to : list (member C H)) x y, In x from -> In y to -> fst x = k -> m_name x = m_name y ->
            exists acc, move_files k from to = (acc, true)).
  { intros k from to x y Ix Iy Ek Exy. unfold move_files.
    assert (Jx : In x (of_kind k from)) by (apply of_kind_in; auto).
    assert (Jy : In y (of_kind k to)).
    { apply of_kind_in; split; auto. unfold m_name in Exy. congruence. }
    assert (G : forall l kn acc, In x l -> In y kn -> exists acc', move_loop l kn acc = (acc', true)).
    2:{ eapply G; eauto. }
    clear - Exy. induction l as [|a l IH]; intros kn acc Jx Jy; [destruct Jx|].
    cbn [move_loop]. match goal with |- context [existsb ?g kn] => destruct (existsb g kn) eqn:Ee end; [eauto|].
    destruct Jx as [->|Jx]; [|apply IH; auto].
    exfalso. apply not_true_iff_false in Ee. apply Ee. apply existsb_exists. exists y. split; auto.
    rewrite <- Exy. unfold name_eqb. destruct (list_eq_dec _ _ _); [|congruence].
    destruct (fst (m_name x)); reflexivity. }
  assert (MM : forall acc, (let '(m1, e1) := move_files Configs (z_mem zq) (z_mem zp) in
               if e1 then (m1, true) else move_files Histories (z_mem zq) m1) = acc -> snd acc = true).
  { intros acc <-. destruct (fst m) eqn:Ek.
    - assert (Ek' : fst m' = Configs) by (unfold m_name in En; congruence).
      destruct (MV Configs (z_mem zq) (z_mem zp) m' m) as (a & ->); auto.
    - assert (Ek' : fst m' = Histories) by (unfold m_name in En; congruence).
      destruct (move_files Configs (z_mem zq) (z_mem zp)) as [m1 [|]] eqn:E1; [reflexivity|].
      destruct (MV Histories (z_mem zq) m1 m' m) as (a & ->); auto.
      assert (G : forall l kn acc r, move_loop l kn acc = (r, false) -> In m acc -> In m r).
      2:{ eapply G; eauto. }
      clear. induction l as [|b l IH]; intros kn acc r E1 I; cbn [move_loop] in E1.
      + now injection E1 as <-.
      + match type of E1 with context [existsb ?g kn] => destruct (existsb g kn); [discriminate|] end.
        apply IH in E1; auto. apply in_app_iff; auto. }
  destruct (move_files Configs (z_mem zq) (z_mem zp)) as [m1 e1] eqn:E1.
  destruct (if e1 then (m1, true) else move_files Histories (z_mem zq) m1) as [m2 e2] eqn:E2.
  specialize (MM _ eq_refl). cbn [snd] in MM. subst e2.
  assert (Q1 : path_eqb p q = false) by (apply path_eqb_neq; congruence).
  assert (Nz : z_mem zp <> []) by (intros Z; rewrite Z in Im; destruct Im).
  unfold outcome_of, bind at 1, remove_results at 1. rewrite Bp. unfold bind at 1, get at 1. rewrite Fp.
  assert (R : exists t1 f1, (match z_res zp with
      | Some _ => step (fun f => upd f p (match z_mem zp with [] => None
                      | ms => Some (Zip {| z_res := None; z_mem := ms |}) end))
      | None => ret tt end) f = (t1, f1, inl tt) /\ f1 q = f q /\
      f1 p = Some (Zip {| z_res := None; z_mem := z_mem zp |})).
  { destruct zp as [[r|] ms]; cbn [z_res z_mem] in *.
    - eexists _, _. split; [reflexivity|]. split; [apply upd_other; congruence|]. rewrite upd_same.
      destruct ms; congruence.
    - eexists _, _. split; [reflexivity|]. auto. }
  destruct R as (t1 & f1 & -> & F1q & F1p).
  unfold dump, remove_results, write_zip, bind, get, step, ret.
  cbn [b_file]. rewrite path_eqb_refl. cbn [negb andb]. rewrite F1p. cbn [z_res]. rewrite F1p.
  cbn [b_confs b_hist z_mem]. rewrite Cc, Ch. cbn [conf_items hist_items map dump_kind].
  rewrite Bq. rewrite !upd_same, !(upd_other _ p q) by congruence. rewrite F1q, Fq. cbn [z_mem z_res].
  rewrite E1, E2. reflexivity.
Qed.

(** Dumping under a new name moves the file of a result: the old one is gone. *)
Theorem C78_dump_moves (b : bres) p q z (f : fs) :
  b_file b = Some q -> q <> p -> f q = Some (Zip z) ->
  exists b', outcome_of (dump nfiles b p false false false) f = inl b' /\
    final_fs (dump nfiles b p false false false) f q = None /\
    final_fs (dump nfiles b p false false false) f p
      = Some (Zip {| z_res := Some (get_data_frame b); z_mem := z_mem z |}) /\
    b_file b' = Some p.
Proof.
  intros Bf Nq Fq. assert (Eq : path_eqb q p = false) by (now apply path_eqb_neq).
  unfold outcome_of, final_fs, dump, bind, get. rewrite Bf, Eq, Fq. cbn -[upd path_eqb].
  unfold remove_results, bind, get.
  assert (Ep : upd (upd f p (f q)) q None p = Some (Zip z)).
  { rewrite upd_other by auto. rewrite upd_same. exact Fq. }
  rewrite Ep. destruct (z_res z) as [d|] eqn:Ez.
  - cbn -[upd path_eqb]. rewrite upd_same. destruct (z_mem z) as [|m ms] eqn:Em; cbn -[upd path_eqb];
      (eexists; split; [reflexivity|]; split; [|split; [apply upd_same|reflexivity]]);
      rewrite !(upd_other _ p q) by auto; apply upd_same.
  - cbn -[upd path_eqb]. rewrite Ep. cbn -[upd path_eqb].
    eexists; split; [reflexivity|]; split; [|split; [apply upd_same|reflexivity]].
    rewrite !(upd_other _ p q) by auto. apply upd_same.
Qed.

End Files.

(* ================================================================== *)
(** * C79: which evaluators a scenario set gets *)

Section C79.
Context {Cfg : Type}.

(** With two or more specific configurations: the one whose name occurs in the
    name of the scenario set, the default if none does, an error if several do. *)
Theorem C79_selection (e : eval_config Cfg) set :
  NoDup (map fst (ec_specific e)) -> 2 <= length (ec_specific e) ->
  (forall n c, In (n, c) (ec_specific e) -> contains n set = true ->
     (forall n' c', In (n', c') (ec_specific e) -> contains n' set = true -> n' = n) ->
     scenario_evaluators e set = inl (Some c)) /\
  ((forall n c, In (n, c) (ec_specific e) -> contains n set = false) ->
     scenario_evaluators e set = inl (ec_default e)) /\
  (forall n c n' c', In (n, c) (ec_specific e) -> In (n', c') (ec_specific e) -> n <> n' ->
     contains n set = true -> contains n' set = true -> scenario_evaluators e set = inr ValueError).
Proof.
  intros ND L2. unfold scenario_evaluators.
  assert (Hl : (1 <? length (ec_specific e)) = true) by (apply Nat.ltb_lt; lia).
  rewrite Hl. set (sel := fun kv : string * Cfg => contains (fst kv) set).
  assert (Hg : forall l : dct Cfg, NoDup (map fst l) -> forall n c, In (n, c) l -> dget l n = Some c).
  { induction l as [|[j w] l IH]; intros N n c I; [destruct I|]. simpl. inversion N; subst.
    destruct I as [E|I]; [inversion E; subst; now rewrite String.eqb_refl|].
    destruct (String.eqb_spec j n) as [->|]; [|auto].
    exfalso. apply H1. apply in_map_iff. exists (n, c); auto. }
  assert (Fin : forall x, In x (filter sel (ec_specific e)) <-> In x (ec_specific e) /\ contains (fst x) set = true)
    by (intros x; apply filter_In).
  assert (NDf : NoDup (map fst (filter sel (ec_specific e)))).
  { clear - ND. induction (ec_specific e) as [|x l IH]; simpl; [constructor|]. inversion ND; subst.
    destruct (sel x); auto. simpl. constructor; auto.
    intros I. apply H1. apply in_map_iff in I as (y & E & I). apply filter_In in I as [I _].
    apply in_map_iff. exists y; auto. }
  destruct (filter sel (ec_specific e)) as [|x [|y r]] eqn:Ef.
  - repeat split; auto.
    + intros n c I Hc _. exfalso. apply (proj2 (Fin (n, c))). auto.
    + intros n c n' c' I _ _ Hc _. exfalso. apply (proj2 (Fin (n, c))). auto.
  - assert (Ix := proj1 (Fin x) (or_introl eq_refl)). destruct Ix as [Ix Cx]. destruct x as [nx cx].
    repeat split.
    + intros n c I Hc U. assert (n = nx) by (symmetry; eapply U; eauto). subst n.
      cbn [fst]. f_equal. apply Hg; auto.
    + intros U. exfalso. simpl in Cx. rewrite (U nx cx Ix) in Cx. discriminate.
    + intros n c n' c' I I' Nn Hc Hc'. exfalso.
      destruct (proj2 (Fin (n, c)) (conj I Hc)) as [E|[]].
      destruct (proj2 (Fin (n', c')) (conj I' Hc')) as [E'|[]]. congruence.
  - assert (Ix := proj1 (Fin x) (or_introl eq_refl)). destruct Ix as [Ix Cx].
    assert (Iy := proj1 (Fin y) (or_intror (or_introl eq_refl))). destruct Iy as [Iy Cy].
    assert (Nxy : fst x <> fst y).
    { simpl in NDf. inversion NDf; subst. intros E. apply H1. rewrite E. simpl; auto. }
    destruct x as [nx cx], y as [ny cy]. repeat split; auto.
    + intros n c I Hc U. exfalso. apply Nxy. simpl.
      transitivity n; [eapply U; eauto|symmetry; eapply U; eauto].
    + intros U. exfalso. simpl in Cx. rewrite (U nx cx Ix) in Cx. discriminate.
Qed.

(** Refuted: a single specific configuration is never used, whatever the set. *)
Theorem C79_single_ignored_refuted (n : string) (c : Cfg) (d : option Cfg) set :
  scenario_evaluators {| ec_specific := [(n, c)]; ec_default := d |} set = inl d.
Proof. reflexivity. Qed.

(** Adding a configuration: later additions under one name replace earlier ones,
    an empty name sets the default. *)
Theorem C79_add (e : eval_config Cfg) (c : Cfg) name :
  let e' := add_evaluator_config e c (Some name) in
  if String.eqb name "" then ec_default e' = Some c /\ ec_specific e' = ec_specific e
  else ec_default e' = ec_default e /\ dget (ec_specific e') name = Some c /\
       forall m, m <> name -> dget (ec_specific e') m = dget (ec_specific e) m.
Proof.
  destruct name as [|a r]; simpl; [auto|]. split; [auto|]. split; [apply dget_dset_same|].
  intros m Nm. now apply dget_dset_other.
Qed.
End C79.

Example C79_nonvacuous :
  scenario_evaluators {| ec_specific := [("merge", 1); ("cross", 2)]; ec_default := Some 0 |} "highway_merge" = inl (Some 1) /\
  scenario_evaluators {| ec_specific := [("merge", 1); ("cross", 2)]; ec_default := Some 0 |} "free" = inl (Some 0) /\
  scenario_evaluators {| ec_specific := [("merge", 1); ("way", 2)]; ec_default := Some 0 |} "highway_merge" = inr ValueError /\
  scenario_evaluators {| ec_specific := [("merge", 1)]; ec_default := Some 0 |} "highway_merge" = inl (Some 0).
Proof. repeat split. Qed.

(* ================================================================== *)
(** * Concrete runs *)

Definition three := [tc 0; tc 1; tc 2].
Definition trun h e cs := run one_file texec 0 h e cs (fresh_result PMerged).

Example C74_nonvacuous :
  nfiles_ok one_file /\ runs_ok texec tout three /\ NoDup (map (c_idx (C:=unit)) three) /\
  (exists b, outcome_of (trun true (Some 2) three) no_files = inl b /\ get_data_frame b = [tr 0; tr 1; tr 2]) /\
  length (crash_states (trun true (Some 2) three) no_files) = 15.
Proof.
  split; [apply toy_nfiles|]. split; [apply toy_runs|]. split.
  { simpl. repeat constructor; simpl; intuition lia. }
  split; [eexists; split; reflexivity|]. vm_compute. reflexivity.
Qed.

(** Resuming before the first checkpoint is complete, after the run, and after a
    kill behind the first checkpoint. *)
Example C75_nonvacuous :
  (exists b, outcome_of (resume one_file texec [] 0 false None three) no_files = inl b /\
     get_data_frame b = [tr 0; tr 1; tr 2]) /\
  (exists b, outcome_of (resume one_file texec [PCkpt 0] 0 false None (three ++ [tc 7]))
       (final_fs (trun false (Some 2) three) no_files) = inl b /\
     get_data_frame b = [tr 7; tr 0; tr 1; tr 2]) /\
  (forall g, g = [PCkpt 0; PTmp 0] \/ g = [PTmp 0; PCkpt 0] ->
     outcome_of (resume one_file texec g 0 false None three)
       (final_fs (run_loop one_file texec 0 false (Some 1) [tc 0] 0 [] [] [] (fresh_result (PCkpt 0))) no_files)
     = inr ValueError) /\
  (exists b, outcome_of (merge_checkpoints one_file [PCkpt 0])
       (final_fs (trun false (Some 2) three) no_files) = inl (Some b) /\
     outcome_of (merge_checkpoints one_file [PMerged])
       (final_fs (merge_checkpoints one_file [PCkpt 0]) (final_fs (trun false (Some 2) three) no_files)) = inr ValueError).
Proof.
  split; [eexists; split; reflexivity|]. split; [eexists; split; reflexivity|].
  split; [intros g [->| ->]; reflexivity|]. eexists; split; reflexivity.
Qed.

Example C77_nonvacuous :
  (exists b, outcome_of (run_mp one_file texec 2 false None three (fresh_result PMerged)) no_files = inl b /\
     get_data_frame b = [tr 0; tr 2; tr 1]) /\
  outcome_of (merge_checkpoints one_file [PCkpt 0; PCkpt 1; PCkpt 2])
     (final_fs (run_mp one_file texec 2 false None three (fresh_result PMerged)) no_files) = inr ValueError.
Proof. split; [eexists; split; reflexivity|reflexivity]. Qed.

Example C78_nonvacuous :
  load_benchmark_configs (H:=unit) [tc 0] [(Configs, [(0, ItC (tc 0)); (1, ItC (tc 1))])] (Some [1]) = [tc 0; tc 0; tc 1] /\
  load_benchmark_configs (H:=unit) [] [(Configs, [(0, ItC (tc 0))]); (Configs, [(1, ItC (tc 1))])] (Some [1]) = [tc 1].
Proof. split; reflexivity. Qed.

(** A clash: both archives store a member for the indices [3]. *)
Example C78_clash_nonvacuous :
  let zp := {| z_res := Some []; z_mem := [(Configs, [(3, ItC (tc 3))])] |} in
  let zq := {| z_res := Some [{| r_idx := 4; r_data := tt |}]; z_mem := [(Configs, [(3, ItC (tc 3))])] |} in
  let f := upd (upd (fun _ => None) (PCkpt 0) (Some (Zip zp))) (PCkpt 1) (Some (Zip zq)) in
  outcome_of (extend (C:=unit) (D:=unit) (H:=unit) (fun _ _ => 1)
     {| b_dicts := []; b_df := Some []; b_confs := []; b_hist := []; b_file := Some (PCkpt 0) |}
     {| b_dicts := []; b_df := z_res zq; b_confs := []; b_hist := []; b_file := Some (PCkpt 1) |} true) f
  = inr ValueError.
Proof.
  cbv zeta. match goal with |- outcome_of (extend _ ?s ?o true) (upd (upd _ _ (Some (Zip ?zp))) _ (Some (Zip ?zq))) = _ =>
    apply (C78_member_clash (fun _ _ => 1) s o (PCkpt 0) (PCkpt 1) zp zq _
             (Configs, [(3, ItC (tc 3))]) (Configs, [(3, ItC (tc 3))])) end;
  try reflexivity; try discriminate; simpl; auto.
Qed.

Print Assumptions C78_member_clash.
Print Assumptions C74_rows.
Print Assumptions C74_checkpoints_irrelevant.
Print Assumptions C74_archive.
Print Assumptions C74_overwrites_refuted.
Print Assumptions C74_views_disagree_refuted.
Print Assumptions C75_resume_exactly_once.
Print Assumptions C75_resume_completed.
Print Assumptions C75_merge_crash_safe.
Print Assumptions C75_killed_not_resumable_refuted.
Print Assumptions C75_second_resume_refuted.
Print Assumptions C77_split.
Print Assumptions C77_rows.
Print Assumptions C77_no_actor.
Print Assumptions C77_not_resumable_refuted.
Print Assumptions C78_roundtrip.
Print Assumptions C78_load_selected.
Print Assumptions C78_reload_refuted.
Print Assumptions C78_too_large.
Print Assumptions C78_dump_moves.
Print Assumptions C79_selection.
Print Assumptions C79_single_ignored_refuted.
Print Assumptions C79_add.
