(** C13, C14: the C++ parameter store. *)
From Coq Require Import String Ascii List Bool Arith ZArith Permutation Sorted Lia.
From Coq Require Import OrderedTypeEx.
From Verif Require Import Model_Params Spec_Params Proof_Params.
Import ListNotations.
Local Open Scope string_scope.

(** C13. Whatever calls a client makes - through the root or through pointers
    obtained from AddChild, names with any number of "::" - every getter returns
    the value most recently set for that fully qualified name and type, and the
    caller's default if there is none; getters and AddChild change no value. *)
Theorem C13_read_returns_last_write :
  forall (D : Type) (calls : list (pop D)),
    Forall good_op calls ->
    fst (prun pstart calls) = fst (frun fstart calls).
Proof. intros D calls G. apply run_related; [apply related_start|exact G]. Qed.
Print Assumptions C13_read_returns_last_write.

(** A child pointer and a "::"-qualified name at the parent denote the same
    parameter. *)
Theorem C13_child_and_qualified_name_agree :
  forall (D : Type) (calls : list (pop D)) c n (v d : pval D),
    Forall good_op calls -> ends_with_colon c = false -> ptype_of v = ptype_of d ->
    let s := snd (prun pstart calls) in
    let h := List.length (phandles s) in
    (* set through the child, read from the root *)
    last (fst (prun s [OpAdd 0 c; OpSet h n v; OpGet 0 (c ++ "::" ++ n) d])) None = Some v /\
    (* set at the root, read through the child *)
    last (fst (prun s [OpAdd 0 c; OpSet 0 (c ++ "::" ++ n) v; OpGet h n d])) None = Some v.
Proof.
  intros D calls c n v d G Ec Et s h.
  destruct (run_related calls pstart fstart related_start G) as [_ R].
  fold s in R. set (f := snd (frun fstart calls)) in *.
  assert (P0 : nth_error (fprefix f) 0 = Some "").
  { unfold f. clear.
    assert (Q : forall l (s : fstate D), nth_error (fprefix s) 0 = Some "" ->
                nth_error (fprefix (snd (frun s l))) 0 = Some "").
    { induction l as [|o l IH]; simpl; intros s H; auto.
      destruct (fstep s o) as [x s'] eqn:E. specialize (IH s').
      destruct (frun s' l). simpl in *. apply IH.
      destruct o; simpl in E;
        destruct (nth_error (fprefix s) h) eqn:Eh; injection E as <- <-; simpl; auto.
      destruct (fprefix s); simpl in *; [discriminate|exact H]. }
    apply Q. reflexivity. }
  assert (Hlen : List.length (fprefix f) = h).
  { destruct R as [_ _ Hh]. clear - Hh. unfold h. induction Hh; simpl; congruence. }
  assert (Ph : forall x, nth_error (fprefix f ++ [x]) h = Some x).
  { intros x. rewrite nth_error_app2 by lia. rewrite Hlen, Nat.sub_diag. reflexivity. }
  assert (P0' : forall x, nth_error (fprefix f ++ [x]) 0 = Some "").
  { intros x. destruct (fprefix f); [discriminate|exact P0]. }
  split.
  - rewrite (proj1 (run_related [OpAdd 0 c; OpSet h n v; OpGet 0 (c ++ "::" ++ n) d] s f R
               ltac:(repeat constructor; auto))).
    cbn [frun fstep]. rewrite P0. cbn [frun fstep flog fprefix]. rewrite Ph. cbn [frun fstep flog fprefix]. rewrite P0'. simpl.
    rewrite last_assigned_app. rewrite string_app_assoc. simpl.
    rewrite String.eqb_refl, <- Et, ptype_eqb_refl. reflexivity.
  - rewrite (proj1 (run_related [OpAdd 0 c; OpSet 0 (c ++ "::" ++ n) v; OpGet h n d] s f R
               ltac:(repeat constructor; auto))).
    cbn [frun fstep]. rewrite P0. cbn [frun fstep flog fprefix]. rewrite P0'. cbn [frun fstep flog fprefix]. rewrite Ph. simpl.
    rewrite last_assigned_app. rewrite string_app_assoc. simpl.
    rewrite String.eqb_refl, <- Et, ptype_eqb_refl. reflexivity.
Qed.
Print Assumptions C13_child_and_qualified_name_agree.

(** The side condition is needed: with a child whose name ends in ':' the value
    set through the child is not what the qualified name reads. *)
Theorem C13_trailing_colon_child_refuted :
  exists calls : list (pop Z), fst (prun pstart calls) <> fst (frun fstart calls).
Proof.
  exists [OpAdd 0 "A:"; OpSet 1 "x" (PInt 5%Z); OpGet 0 "A:::x" (PInt 0%Z)].
  vm_compute. discriminate.
Qed.
Print Assumptions C13_trailing_colon_child_refuted.

Definition ex_calls : list (pop Z) :=
  [OpSet 0 "World::dt" (PReal 2%Z); OpAdd 0 "World"; OpAdd 1 "Behavior";
   OpSet 2 "IDM::a" (PReal 7%Z); OpSet 0 "World::Behavior::name" (PString "idm");
   OpGet 1 "Behavior::IDM::a" (PReal 0%Z); OpGet 1 "dt" (PReal 0%Z);
   OpGet 1 "dt" (PInt 3%Z); OpSet 1 "dt" (PReal 9%Z); OpGet 0 "World::dt" (PReal 0%Z);
   OpGet 2 "name" (PString "none"); OpGet 0 "Nope::x" (PBool true)].
Example C13_nonvacuous :
  Forall good_op ex_calls /\
  fst (prun pstart ex_calls) =
    [None; None; None; None; None; Some (PReal 7%Z); Some (PReal 2%Z); Some (PInt 3%Z);
     None; Some (PReal 9%Z); Some (PString "idm"); Some (PBool true)].
Proof. split; [repeat constructor|vm_compute; reflexivity]. Qed.

(** C14. The condensed list holds exactly the current parameters, each once. *)
Theorem C14_condensed_list_is_exact :
  forall (D : Type) (calls : list (pop D)),
    Forall good_op calls ->
    let t := ptree (snd (prun pstart calls)) in
    let log := flog (snd (frun fstart calls)) in
    NoDup (map (fun e => (ptype_of (snd e), fst e)) (condensed t)) /\
    forall n v, In (n, v) (condensed t) <-> last_assigned log (ptype_of v) n = Some v.
Proof.
  intros D calls G t log.
  destruct (run_related calls pstart fstart related_start G) as [_ [W A _]].
  fold t log in W, A. split; [apply condensed_nodup; exact W|].
  intros n v. rewrite in_condensed by exact W. rewrite A. reflexivity.
Qed.
Print Assumptions C14_condensed_list_is_exact.

(** Two related states whose logs answer alike behave alike for ever. *)
Lemma frun_congr {D} (l : list (pop D)) : forall f g,
  (forall ty n, last_assigned (flog f) ty n = last_assigned (flog g) ty n) ->
  fprefix f = fprefix g -> fst (frun f l) = fst (frun g l).
Proof.
  induction l as [|o l IH]; simpl; intros f g H P; [reflexivity|].
  assert (E : fst (fstep f o) = fst (fstep g o) /\
              (forall ty n, last_assigned (flog (snd (fstep f o))) ty n
                            = last_assigned (flog (snd (fstep g o))) ty n) /\
              fprefix (snd (fstep f o)) = fprefix (snd (fstep g o))).
  { destruct o; simpl; rewrite <- P; destruct (nth_error (fprefix f) h); simpl; auto.
    all: rewrite ?H; split; auto; split; auto; intros; rewrite ?last_assigned_app, ?H; reflexivity. }
  destruct (fstep f o) as [x f'], (fstep g o) as [y g']. simpl in E. destruct E as [E1 [E2 E3]].
  specialize (IH f' g' E2 E3). destruct (frun f' l), (frun g' l). simpl in *. congruence.
Qed.

(** A store rebuilt from the condensed list - in whatever order the hash maps
    were iterated - answers every later client program exactly as the original. *)
Theorem C14_reload_is_lossless :
  forall (D : Type) (calls : list (pop D)) (l : list (string * pval D)) (later : list (pop D)),
    Forall good_op calls -> Forall good_op later ->
    let t := ptree (snd (prun pstart calls)) in
    Permutation (condensed t) l ->
    fst (prun {| ptree := of_list l; phandles := [[]] |} later)
    = fst (prun {| ptree := t; phandles := [[]] |} later) /\
    Permutation (condensed (of_list l)) (condensed t).
Proof.
  intros D calls l later G GL t P.
  destruct (run_related calls pstart fstart related_start G) as [_ [W _ _]]. fold t in W.
  destruct (of_list_spec l) as [A1 W1].
  pose proof (condensed_agrees t W) as A2.
  assert (H0 : Forall2 (fun p pre => Forall good_child p /\ forall m, join p m = pre ++ m) [[]] [""])
    by (constructor; [split; [constructor|intros; reflexivity]|constructor]).
  split.
  - transitivity (fst (frun {| flog := l; fprefix := [""] |} later)).
    + apply run_related; auto. split; auto.
    + transitivity (fst (frun {| flog := condensed t; fprefix := [""] |} later)).
      * apply frun_congr; [|reflexivity]. simpl. intros.
        symmetry. apply last_assigned_perm; auto. apply condensed_nodup; auto.
      * symmetry. apply run_related; auto. split; auto.
  - apply condensed_perm; auto. apply reload_agrees; auto.
Qed.
Print Assumptions C14_reload_is_lossless.

(** A single read, spelled out. *)
Corollary C14_reload_reads_equal :
  forall (D : Type) (calls : list (pop D)) n (d : pval D),
    Forall good_op calls ->
    let t := ptree (snd (prun pstart calls)) in
    fst (get_param (of_list (condensed t)) n d) = fst (get_param t n d).
Proof.
  intros D calls n d G t.
  destruct (run_related calls pstart fstart related_start G) as [_ [W _ _]]. fold t in W.
  destruct (of_list_spec (condensed t)) as [_ W1].
  rewrite !get_param_value by auto. rewrite (reload_agrees t (condensed t)); auto.
Qed.

(** Not so for a child whose name ends in ':'. *)
Theorem C14_trailing_colon_child_refuted :
  exists (calls : list (pop Z)) n (d : pval Z),
    let t := ptree (snd (prun pstart calls)) in
    fst (get_param (of_list (condensed t)) n d) <> fst (get_param t n d).
Proof.
  exists [OpAdd 0 "A:"; OpSet 1 "x" (PInt 5%Z)], "A:::x", (PInt 0%Z).
  vm_compute. discriminate.
Qed.
Print Assumptions C14_trailing_colon_child_refuted.

(** operator==. [sort] is whatever std::sort does with the by-name comparison:
    a permutation in which no later name is smaller than an earlier one. *)
Definition name_sort {D} (lt : string -> string -> Prop)
  (sort : list (string * pval D) -> list (string * pval D)) : Prop :=
  forall l, Permutation l (sort l) /\
            StronglySorted (fun a b => ~ lt (fst b) (fst a)) (sort l).

Lemma all_equal_true {D} (val_eqb : pval D -> pval D -> bool) a b :
  (forall v w, val_eqb v w = true -> v = w) -> all_equal val_eqb a b = true -> a = b.
Proof.
  intros V. revert b. induction a as [|[n v] a IH]; intros [|[m w] b]; simpl; try discriminate; auto.
  rewrite !andb_true_iff. intros [[H1 H2] H3]. apply String.eqb_eq in H1. apply V in H2.
  apply IH in H3. congruence.
Qed.

(** operator== never calls stores equal that answer differently. *)
Theorem C14_equality_sound :
  forall (D : Type) (val_eqb : pval D -> pval D -> bool) lt sort (calls1 calls2 : list (pop D)) n d,
    (forall v w, val_eqb v w = true -> v = w) -> name_sort lt sort ->
    Forall good_op calls1 -> Forall good_op calls2 ->
    let t := ptree (snd (prun pstart calls1)) in
    let u := ptree (snd (prun pstart calls2)) in
    params_eq_result val_eqb t u sort = true ->
    fst (get_param t n d) = fst (get_param u n d).
Proof.
  intros D val_eqb lt sort c1 c2 n d V NS G1 G2 t u E.
  destruct (run_related c1 pstart fstart related_start G1) as [_ [W1 _ _]]. fold t in W1.
  destruct (run_related c2 pstart fstart related_start G2) as [_ [W2 _ _]]. fold u in W2.
  unfold params_eq_result in E. destruct (Nat.eqb _ _); [|discriminate].
  apply all_equal_true in E; auto.
  assert (P : Permutation (condensed t) (condensed u)).
  { destruct (NS (condensed t)) as [P1 _], (NS (condensed u)) as [P2 _].
    rewrite P1, P2, E. reflexivity. }
  rewrite !get_param_value by auto.
  rewrite (condensed_agrees t W1), (condensed_agrees u W2).
  rewrite (last_assigned_perm _ _ _ _ (condensed_nodup t W1) P). reflexivity.
Qed.
Print Assumptions C14_equality_sound.

Lemma sorted_unique {D} (lt : string -> string -> Prop) :
  (forall a b, lt a b \/ a = b \/ lt b a) ->
  forall a b : list (string * pval D),
  StronglySorted (fun x y => ~ lt (fst y) (fst x)) a ->
  StronglySorted (fun x y => ~ lt (fst y) (fst x)) b ->
  NoDup (map fst a) -> Permutation a b -> a = b.
Proof.
  intros Tot. induction a as [|[n v] a IH]; intros b Sa Sb ND P.
  - apply Permutation_nil in P. auto.
  - destruct b as [|[m w] b]; [symmetry in P; apply Permutation_nil in P; discriminate|].
    inversion Sa as [|? ? Sa' Fa]; inversion Sb as [|? ? Sb' Fb]; inversion ND as [|? ? N ND']; subst.
    assert (NDb : NoDup (map fst ((m, w) :: b))).
    { eapply Permutation_NoDup; [|exact ND]. apply Permutation_map; auto. }
    simpl in NDb. inversion NDb as [|? ? Nb NDb']; subst.
    assert (E : (n, v) = (m, w)).
    { assert (I1 : In (m, w) ((n, v) :: a)) by (eapply Permutation_in; [symmetry; exact P|left; reflexivity]).
      assert (I2 : In (n, v) ((m, w) :: b)) by (eapply Permutation_in; [exact P|left; reflexivity]).
      destruct I1 as [|I1]; auto. destruct I2 as [|I2]; auto. exfalso.
      rewrite Forall_forall in Fa, Fb. apply Fa in I1 as J1. apply Fb in I2 as J2. simpl in *.
      destruct (Tot n m) as [X|[X|X]]; auto. subst. apply N. apply in_map_iff. exists (m, w). auto. }
    injection E as -> ->. f_equal. apply IH; auto. eapply Permutation_cons_inv; eauto.
Qed.

(** ... and it recognises a reloaded store as equal, if no name is used with two
    types and all values equal themselves (no NaN). *)
Theorem C14_equality_recognises_reload :
  forall (D : Type) (val_eqb : pval D -> pval D -> bool) lt sort (calls : list (pop D)),
    (forall a b, lt a b \/ a = b \/ lt b a) -> name_sort lt sort ->
    Forall good_op calls ->
    let t := ptree (snd (prun pstart calls)) in
    (forall n v, In (n, v) (condensed t) -> val_eqb v v = true) ->
    NoDup (map fst (condensed t)) ->
    forall l, Permutation (condensed t) l ->
    params_eq_result val_eqb t (of_list l) sort = true.
Proof.
  intros D val_eqb lt sort calls Tot NS G t VR ND l P.
  destruct (C14_reload_is_lossless D calls l [] G (Forall_nil _) P) as [_ PP].
  fold t in PP. unfold params_eq_result.
  rewrite (Permutation_length PP), Nat.eqb_refl.
  destruct (NS (condensed t)) as [P1 S1], (NS (condensed (of_list l))) as [P2 S2].
  assert (E : sort (condensed t) = sort (condensed (of_list l))).
  { apply (sorted_unique lt Tot); auto.
    - eapply Permutation_NoDup; [|exact ND]. apply Permutation_map; auto.
    - rewrite <- P1, <- P2. symmetry. exact PP. }
  rewrite <- E. clear S1 S2 P2 E PP.
  assert (VR' : forall n v, In (n, v) (sort (condensed t)) -> val_eqb v v = true).
  { intros n v I. apply (VR n v). eapply Permutation_in; [symmetry; exact P1|exact I]. }
  induction (sort (condensed t)) as [|[n v] q IH] in VR' |- *; simpl; auto.
  rewrite String.eqb_refl, (VR' n v) by (left; reflexivity). simpl. apply IH.
  intros m w I. apply (VR' m w). right. exact I.
Qed.
Print Assumptions C14_equality_recognises_reload.

(** A name used with two types: the result of operator== is up to std::sort. *)
Theorem C14_equality_mixed_types_unspecified :
  exists (val_eqb : pval Z -> pval Z -> bool) (a b : list (string * pval Z)) (t : sparams Z),
    (forall v w, val_eqb v w = true <-> v = w) /\
    t = of_list (condensed t) /\
    Permutation (condensed t) a /\ Permutation (condensed t) b /\
    StronglySorted (fun x y => ~ String_as_OT.lt (fst y) (fst x)) a /\
    StronglySorted (fun x y => ~ String_as_OT.lt (fst y) (fst x)) b /\
    all_equal val_eqb a b = false.
Proof.
  assert (DEC : forall v w : pval Z, {v = w} + {v <> w}).
  { intros v w. decide equality; try apply Bool.bool_dec; try apply Z.eq_dec; try apply string_dec.
    - apply list_eq_dec. apply list_eq_dec. apply Z.eq_dec.
    - apply list_eq_dec. apply Z.eq_dec. }
  exists (fun v w => if DEC v w then true else false),
         [("x", PBool true); ("x", PInt 1%Z)], [("x", PInt 1%Z); ("x", PBool true)],
         (of_list [("x", PBool true); ("x", PInt 1%Z)]).
  assert (NL : forall s, ~ String_as_OT.lt s s)
    by (intros s L; exact (String_as_OT.lt_not_eq _ _ L eq_refl)).
  split; [intros v w; destruct (DEC v w); split; congruence|].
  split; [vm_compute; reflexivity|]. split; [vm_compute; reflexivity|]. split; [vm_compute; constructor|].
  split; [|split].
  - repeat constructor; apply NL.
  - repeat constructor; apply NL.
  - simpl. destruct (DEC (PBool true) (PInt 1%Z)); [discriminate|reflexivity].
Qed.

(** Non-vacuity: a concrete store with nested children, its condensed list, and
    a sort meeting the contract. *)
Example C14_nonvacuous :
  let t := ptree (snd (prun pstart ex_calls)) in
  Forall good_op ex_calls /\
  condensed t = [("World::dt", PReal 9%Z); ("World::Behavior::name", PString "idm");
                 ("World::Behavior::IDM::a", PReal 7%Z)] /\
  NoDup (map fst (condensed t)) /\
  fst (get_param (of_list (rev (condensed t))) "World::Behavior::IDM::a" (PReal 0%Z)) = PReal 7%Z.
Proof.
  assert (E : condensed (ptree (snd (prun pstart ex_calls))) =
    [("World::dt", PReal 9%Z); ("World::Behavior::name", PString "idm");
     ("World::Behavior::IDM::a", PReal 7%Z)]) by (vm_compute; reflexivity).
  cbv zeta. split; [repeat constructor|]. split; [exact E|]. rewrite E.
  split; [|vm_compute; reflexivity].
  cbn [map fst]. repeat constructor; cbn [In]; intuition discriminate.
Qed.

Fixpoint ins_name {D} (e : string * pval D) l :=
  match l with
  | [] => [e]
  | x :: r => match String_as_OT.cmp (fst e) (fst x) with
              | Gt => x :: ins_name e r
              | _ => e :: l
              end
  end.
Fixpoint sort_name {D} (l : list (string * pval D)) :=
  match l with [] => [] | e :: r => ins_name e (sort_name r) end.
Example C14_sort_contract_satisfiable : @name_sort Z String_as_OT.lt sort_name.
Proof.
  assert (PI : forall (e : string * pval Z) l, Permutation (e :: l) (ins_name e l)).
  { intros e. induction l as [|x r IH]; simpl; [reflexivity|].
    destruct (String_as_OT.cmp (fst e) (fst x)); try reflexivity.
    rewrite perm_swap. constructor. exact IH. }
  assert (LT : forall a b, String_as_OT.cmp a b = Lt -> String_as_OT.lt a b)
    by (intros; apply String_as_OT.cmp_lt; auto).
  intros l. split.
  - induction l as [|e r IH]; simpl; [constructor|]. rewrite <- PI. constructor. exact IH.
  - induction l as [|e r IH]; simpl; [constructor|].
    assert (Q : forall e (l : list (string * pval Z)),
      StronglySorted (fun a b => ~ String_as_OT.lt (fst b) (fst a)) l ->
      StronglySorted (fun a b => ~ String_as_OT.lt (fst b) (fst a)) (ins_name e l)).
    { clear. intros e. induction l as [|x l IH]; intros S; simpl; [repeat constructor|].
      inversion S as [|? ? S' F]; subst.
      destruct (String_as_OT.cmp (fst e) (fst x)) eqn:C.
      - constructor; auto. apply String_as_OT.cmp_eq in C.
        constructor; [intros L; rewrite C in L; exact (String_as_OT.lt_not_eq _ _ L eq_refl)|].
        rewrite C. exact F.
      - constructor; auto. apply String_as_OT.cmp_lt in C.
        constructor.
        + intros L. exact (String_as_OT.lt_not_eq _ _ (String_as_OT.lt_trans _ _ _ L C) eq_refl).
        + rewrite Forall_forall in *. intros y Y L. apply (F y Y).
          eapply String_as_OT.lt_trans; [exact L|exact C].
      - assert (L : String_as_OT.lt (fst x) (fst e)).
        { apply String_as_OT.cmp_lt. rewrite String_as_OT.cmp_antisym, C. reflexivity. }
        constructor; [apply IH; auto|].
        assert (PI : Permutation (e :: l) (ins_name e l)).
        { clear. induction l as [|x r IH]; simpl; [reflexivity|].
          destruct (String_as_OT.cmp (fst e) (fst x)); try reflexivity.
          rewrite perm_swap. constructor. exact IH. }
        rewrite Forall_forall in *. intros y Y. apply (Permutation_in _ (Permutation_sym PI)) in Y.
        destruct Y as [<-|Y]; [|auto].
        intros L2. exact (String_as_OT.lt_not_eq _ _ (String_as_OT.lt_trans _ _ _ L L2) eq_refl). }
    apply Q. exact IH.
Qed.
