(** C94: merging, searching and comparing Python parameter servers. *)

From Coq Require Import String Ascii List Arith Lia Bool QArith ZArith.
Import ListNotations.
From Verif Require Import Model_BenchRun Proof_BenchRun Model_Params Model_PyParams Spec_PyParams Proof_PyAccess Proof_PyGet Proof_PyConv Proof_PyCond Proof_PyFind Proof_PyAppend Props_PyConv.
Local Open Scope string_scope.
Local Open Scope nat_scope.
Local Open Scope list_scope.

(** p.AppendParamServer(q, overwrite): p then holds the merger of both; q and all servers
    that do not belong to p are as before. *)
Theorem C94_append : forall h l d1 f1 l2 d2 f2 ow, holds h l d1 f1 -> holds h l2 d2 f2 -> clean_dict d1 -> clean_dict d2 ->
  NoDup f1 -> NoDup f2 -> (forall x, In x f2 -> ~ In x f1) -> forall n, length f2 <= n ->
  exists h' d f, append n ow h l l2 = Some h' /\ holds h' l d f /\ merged ow d1 d2 d /\ holds h' l2 d2 f2 /\
    incl f (f1 ++ f2) /\ clean_dict d /\ length h' = length h /\ (forall x, ~ In x f1 -> nth_error h' x = nth_error h x).
Proof.
  intros h l d1 f1 l2 d2 f2 ow H1 H2 C1 C2 N1 N2 D n L.
  destruct (proj1 (append_ok ow h) l2 d2 f2 H2 C2 N2 h l d1 f1 n) as (h' & d & f & A1 & A2 & A3 & A4 & A5 & A6 & A7 & A8); auto.
  { intros x _. reflexivity. }
  exists h', d, f. repeat (split; [assumption|]). split; [|auto].
  eapply (proj1 (holds_frame h)); [exact H2|]. intros x I. apply A7. auto.
Qed.
Print Assumptions C94_append.

(** What a merger means for a single parameter: one only q has is there with q's value,
    one only p has stays. *)
Theorem C94_merged_right : forall ow d1 d2 d k y, merged ow d1 d2 d -> jget d1 k = None -> jget d2 k = Some y -> jget d k = Some y.
Proof. intros ow d1 d2 d k y M E1 E2. inversion M as [? ? ? A]; subst. specialize (A k). rewrite E1, E2 in A. inversion A; subst; congruence. Qed.
Print Assumptions C94_merged_right.
Theorem C94_merged_left : forall ow d1 d2 d k, merged ow d1 d2 d -> jget d2 k = None -> jget d k = jget d1 k.
Proof. intros ow d1 d2 d k M E2. inversion M as [? ? ? A]; subst. specialize (A k). rewrite E2 in A. inversion A; subst; congruence. Qed.
Print Assumptions C94_merged_left.
Theorem C94_merged_clash : forall ow d1 d2 d k x y, merged ow d1 d2 d -> jget d1 k = Some x -> jget d2 k = Some y ->
  is_dict x = false \/ is_dict y = false -> jget d k = Some (if ow then y else x).
Proof.
  intros ow d1 d2 d k x y M E1 E2 Q. inversion M as [? ? ? A]; subst. specialize (A k). rewrite E1, E2 in A.
  inversion A; subst; auto. cbn in Q. destruct Q; discriminate.
Qed.
Print Assumptions C94_merged_clash.

(** The groups taken from q are shared, not copied: a later assignment to p shows in q. *)
Definition hp : heap := [[("a", PVal (JAtom (AInt 1)))]; [("G", PServer 2)]; [("x", PVal (JAtom (AInt 2)))]].
Theorem C94_append_shares_refuted :
  ~ (forall h l d1 f1 l2 d2 f2 n h1 h2 key v, holds h l d1 f1 -> holds h l2 d2 f2 -> clean_dict d1 -> clean_dict d2 ->
       (forall x, In x f2 -> ~ In x f1) -> append n false h l l2 = Some h1 -> set_item h1 l key v = Some h2 -> holds h2 l2 d2 f2).
Proof.
  intros H.
  specialize (H hp 0 [("a", JAtom (AInt 1))] [0] 1 [("G", JDict [("x", JAtom (AInt 2))])] [1; 2] 5
    (upd hp 0 "G" (PServer 2)) (upd (upd hp 0 "G" (PServer 2)) 2 "x" (PVal (JAtom (AInt 7)))) "G::x" (PVal (JAtom (AInt 7)))).
  assert (K : holds (upd (upd hp 0 "G" (PServer 2)) 2 "x" (PVal (JAtom (AInt 7)))) 1 [("G", JDict [("x", JAtom (AInt 2))])] [1; 2]).
  { apply H; try reflexivity.
    - apply (holds_server _ 0 [("a", PVal (JAtom (AInt 1)))] _ []); [reflexivity|].
      apply (he_cons _ "a" (PVal (JAtom (AInt 1))) (JAtom (AInt 1)) [] [] [] []); [now constructor|constructor].
    - apply (holds_server _ 1 [("G", PServer 2)] _ [2]); [reflexivity|].
      apply (he_cons _ "G" (PServer 2) (JDict [("x", JAtom (AInt 2))]) [2] [] [] []); [|constructor].
      constructor. apply (holds_server _ 2 [("x", PVal (JAtom (AInt 2)))] _ []); [reflexivity|].
      apply (he_cons _ "x" (PVal (JAtom (AInt 2))) (JAtom (AInt 2)) [] [] [] []); [now constructor|constructor].
    - apply cd_cons; [cln|intros []|now apply cv_plain|constructor].
    - apply cd_cons; [cln|intros []| |constructor]. apply cv_dict. apply cd_cons; [cln|intros []|now apply cv_plain|constructor].
    - intros x [<-|[<-|[]]] [?|[]]; discriminate. }
  pose proof (proj1 (to_dict_ok _) _ _ _ K 5 ltac:(cbn; lia)) as T. vm_compute in T. discriminate.
Qed.
Print Assumptions C94_append_shares_refuted.

(** FindKey(name): the full name of a parameter called so, None if there is none (groups
    are not found). *)
Theorem C94_find_key : forall h l d f name, holds h l d f -> clean_dict d -> forall n, length f <= n ->
  exists r, find_key n h l name = Some r /\
    match r with
    | Some s => exists ks j, s = join (ks ++ [name]) /\ lookup (JDict d) (ks ++ [name]) = Some j /\ is_dict j = false
    | None => forall ks j, lookup (JDict d) (ks ++ [name]) = Some j -> is_dict j = true
    end.
Proof.
  intros h l d f name H C n L. destruct (proj1 (find_ok h name) l d f H C n L) as (r & A1 & A2). exists r. split; [assumption|].
  destruct r as [s|]; cbn in A2.
  - destruct A2 as (ks & K1 & j & K2 & K3). exists ks, j. auto.
  - intros ks j E. destruct (is_dict j) eqn:Q; [reflexivity|]. exfalso. apply (A2 ks). exists j. auto.
Qed.
Print Assumptions C94_find_key.

(** p.HasEqualParamsAs(q) is True exactly if they differ in something q has; both are left
    alone. *)
Theorem C94_compare : forall py_eq h l d1 f1 l2 d2 f2, holds h l d1 f1 -> holds h l2 d2 f2 -> clean_dict d2 ->
  (forall x, In x f1 -> x < length h) -> (forall x, In x f2 -> x < length h) -> (forall x, In x f1 -> ~ In x f2) ->
  forall n, length f2 <= n ->
  exists h' b, has_diff py_eq n (fst (alloc h)) l l2 (snd (alloc h)) = Some (h', b) /\
    (forall x, x < length h -> nth_error h' x = nth_error h x) /\ (b = true <-> differs py_eq d1 d2).
Proof.
  intros py_eq h l d1 f1 l2 d2 f2 H1 H2 C2 B1 B2 D n L. unfold alloc. cbn [fst snd].
  assert (AG : forall f0, (forall x, In x f0 -> x < length h) -> agree h (h ++ [[]]) f0) by (intros f0 Bf x I; apply nth_error_app1; auto).
  destruct (proj1 (diff_ok py_eq h) l2 d2 f2 H2 C2 (h ++ [[]]) l (length h) d1 f1 n) as (h' & b & A1 & (A2 & A3) & A4); auto.
  - eapply (proj1 (holds_frame h)); [exact H1|auto].
  - intros x I. rewrite app_length. specialize (B1 x I). cbn. lia.
  - intros x I. rewrite app_length. specialize (B2 x I). cbn. lia.
  - intros I. specialize (B1 _ I). lia.
  - intros I. specialize (B2 _ I). lia.
  - apply nth_app_new.
  - exists h', b. split; [assumption|]. split; [|assumption]. intros x Lx. rewrite A3; [|rewrite app_length; cbn; lia|lia]. now apply nth_error_app1.
Qed.
Print Assumptions C94_compare.

(** Parameters only p has do not count: against an empty server nothing differs, while the
    other way round everything does. *)
Theorem C94_one_sided_refuted : forall py_eq d, ~ differs py_eq d [] /\ (d <> [] -> differs py_eq [] d).
Proof.
  intros py_eq d. split; [intros H; inversion H; discriminate|]. intros N. destruct d as [|[k j] d]; [congruence|].
  eapply (df_missing _ _ _ k j); [|reflexivity]. cbn. now rewrite String.eqb_refl.
Qed.
Print Assumptions C94_one_sided_refuted.

(** Two servers holding the same dictionary differ if it has a list of groups. *)
Theorem C94_group_list_refuted : forall py_eq d k e es, jget d k = Some (JList (map JDict (e :: es))) -> differs py_eq d d.
Proof.
  intros py_eq d k e es E. eapply (df_at _ _ _ k); [exact E|exact E|]. apply dv_lists; [reflexivity|reflexivity|left; apply plain_groups].
Qed.
Print Assumptions C94_group_list_refuted.

Lemma simple_same py_eq : (forall j, plain_value j = true -> py_eq j j = true) ->
  (forall j, simple j -> ~ differs_value py_eq j j) /\ (forall d, simple_dict d -> forall k x, jget d k = Some x -> ~ differs_value py_eq x x).
Proof.
  intros R. apply simple_mut with (P := fun j _ => ~ differs_value py_eq j j)
    (P0 := fun d _ => forall k x, jget d k = Some x -> ~ differs_value py_eq x x).
  - intros j P V. inversion V as [e1 e2|? ? Q|? ? ? ? Q|? ? ? ? Q]; subst; [discriminate|congruence|rewrite R in Q by assumption; discriminate|destruct Q; congruence].
  - intros d N _ IH V. inversion V as [e1 e2 Q|? ? Q|? ? Q|? ? Q]; subst; try congruence; try discriminate.
    inversion Q as [? ? k y A B|? ? k x y A B C]; subst; [congruence|]. rewrite A in B. injection B as <-. exact (IH k x A C).
  - discriminate.
  - intros k j d _ IHj _ IHd k' x E. cbn in E. destruct (String.eqb k k'); [injection E as <-; assumption|eauto].
Qed.
Lemma simple_marked : (forall j, simple j -> marked j = j) /\ (forall d, simple_dict d -> marked_dict d = d).
Proof.
  apply simple_mut with (P := fun j _ => marked j = j) (P0 := fun d _ => marked_dict d = d).
  - intros j P. destruct j as [a|[|x l]|d]; try reflexivity; [|discriminate]. cbn [plain_value] in P. apply negb_true_iff in P. cbn [marked]. now rewrite P.
  - intros d N _ M. destruct d as [|[k j] d]; [congruence|]. change (JDict (marked_dict ((k, j) :: d)) = JDict ((k, j) :: d)). now rewrite M.
  - reflexivity.
  - intros k j d _ IHj _ IHd. cbn. unfold marked_dict in IHd. now rewrite IHj, IHd.
Qed.

(** A server and its clone compare as the same, either way, if there are neither lists of
    groups nor empty groups. *)
Theorem C94_clone_equal : forall py_eq h l d f, (forall j, plain_value j = true -> py_eq j j = true) ->
  holds h l d f -> clean_dict d -> simple_dict d -> (forall x, In x f -> x < length h) -> forall n, length f <= n ->
  exists h1 l1, clone n h l = Some (h1, l1) /\ exists n0, forall m, n0 <= m ->
    (exists h2, has_diff py_eq m (fst (alloc h1)) l l1 (snd (alloc h1)) = Some (h2, false)) /\
    (exists h2, has_diff py_eq m (fst (alloc h1)) l1 l (snd (alloc h1)) = Some (h2, false)).
Proof.
  intros py_eq h l d f R H C S B n L. unfold clone. rewrite (C93_to_dict _ _ _ _ H n L). rewrite (proj2 simple_marked d S).
  destruct (of_json_ok d C h) as (h1 & l1 & f' & A1 & A2 & (A3 & A4 & A5) & A6). exists h1, l1. split; [assumption|].
  assert (K : holds h1 l d f) by (eapply (proj1 (holds_frame h)); [exact H|]; intros x I; apply A6; auto).
  assert (ND : ~ differs py_eq d d).
  { intros Q. inversion Q as [? ? k y E1 E2|? ? k x y E1 E2 V]; subst; [congruence|]. rewrite E1 in E2. injection E2 as <-.
    exact (proj2 (simple_same py_eq R) d S k x E1 V). }
  assert (NB : forall b, (b = true <-> differs py_eq d d) -> b = false) by (intros [|] Q; [exfalso; apply ND; now apply Q|reflexivity]).
  exists (length f + length f'). intros m Lm. split.
  - destruct (C94_compare py_eq h1 l d f l1 d f' K A2 C) with (n := m) as (h2 & b & R1 & R2 & R3); try lia.
    + intros x I. specialize (B x I). lia.
    + intros x I. specialize (A4 x I). lia.
    + intros x I J. specialize (B x I). specialize (A4 x J). lia.
    + exists h2. rewrite R1. now rewrite (NB b R3).
  - destruct (C94_compare py_eq h1 l1 d f' l d f A2 K C) with (n := m) as (h2 & b & R1 & R2 & R3); try lia.
    + intros x I. specialize (A4 x I). lia.
    + intros x I. specialize (B x I). lia.
    + intros x I J. specialize (A4 x I). specialize (B x J). lia.
    + exists h2. rewrite R1. now rewrite (NB b R3).
Qed.
Print Assumptions C94_clone_equal.

(* ---- the hypotheses are met ---- *)
Definition ints (j1 j2 : json) : bool := match j1, j2 with JAtom (AInt a), JAtom (AInt b) => Z.eqb a b | _, _ => false end.
Definition hq : heap :=
  [[("A", PServer 1); ("x", PVal (JAtom (AInt 1)))]; [("u", PVal (JAtom (AInt 2)))];
   [("A", PServer 3); ("x", PVal (JAtom (AInt 5))); ("B", PServer 4)]; [("w", PVal (JAtom (AInt 3)))]; []].
Example C94_nonvacuous :
  to_dict 5 hq 0 = Some [("A", JDict [("u", JAtom (AInt 2))]); ("x", JAtom (AInt 1))] /\
  (exists h', append 5 false hq 0 2 = Some h' /\
     to_dict 5 h' 0 = Some [("A", JDict [("u", JAtom (AInt 2)); ("w", JAtom (AInt 3))]); ("x", JAtom (AInt 1)); ("B", JAtom (AStr "MISSING"))]) /\
  (exists h', append 5 true hq 0 2 = Some h' /\
     to_dict 5 h' 0 = Some [("A", JDict [("u", JAtom (AInt 2)); ("w", JAtom (AInt 3))]); ("x", JAtom (AInt 5)); ("B", JAtom (AStr "MISSING"))]) /\
  find_key 5 hq 0 "u" = Some (Some "A::u") /\ find_key 5 hq 0 "A" = Some None /\ find_key 5 hq 2 "x" = Some (Some "x") /\
  (exists h', has_diff ints 5 (hq ++ [[]]) 0 2 5 = Some (h', true) /\
     to_dict 5 h' 5 = Some [("A", JDict [("w", JAtom (AInt 3))]); ("x", JAtom (AInt 5)); ("B", JAtom (AStr "MISSING"))]).
Proof.
  split; [reflexivity|]. split; [eexists; split; reflexivity|]. split; [eexists; split; reflexivity|]. repeat (split; [reflexivity|]).
  eexists. split; reflexivity.
Qed.
Example C94_holds_nonvacuous :
  holds hq 0 [("A", JDict [("u", JAtom (AInt 2))]); ("x", JAtom (AInt 1))] [0; 1] /\
  clean_dict [("A", JDict [("u", JAtom (AInt 2))]); ("x", JAtom (AInt 1))] /\
  simple_dict [("A", JDict [("u", JAtom (AInt 2))]); ("x", JAtom (AInt 1))].
Proof.
  split; [|split].
  - apply (holds_server _ 0 [("A", PServer 1); ("x", PVal (JAtom (AInt 1)))] _ [1]); [reflexivity|].
    apply (he_cons _ "A" (PServer 1) (JDict [("u", JAtom (AInt 2))]) [1] [("x", PVal (JAtom (AInt 1)))] [("x", JAtom (AInt 1))] []).
    + constructor. apply (holds_server _ 1 [("u", PVal (JAtom (AInt 2)))] _ []); [reflexivity|].
      apply (he_cons _ "u" (PVal (JAtom (AInt 2))) (JAtom (AInt 2)) [] [] [] []); [now constructor|constructor].
    + apply (he_cons _ "x" (PVal (JAtom (AInt 1))) (JAtom (AInt 1)) [] [] [] []); [now constructor|constructor].
  - apply cd_cons; [cln|cbn; intuition discriminate| |].
    + apply cv_dict. apply cd_cons; [cln|intros []|now apply cv_plain|constructor].
    + apply cd_cons; [cln|intros []|now apply cv_plain|constructor].
  - apply smd_cons; [apply sm_group; [discriminate|]; apply smd_cons; [now apply sm_plain|constructor]|]. apply smd_cons; [now apply sm_plain|constructor].
Qed.
