From Coq Require Import String Ascii List Bool Arith Lia Permutation ZArith.
From Verif Require Import Model_Params Spec_Params.
Import ListNotations.
Local Open Scope string_scope.

Lemma ptype_eqb_eq a b : ptype_eqb a b = true <-> a = b.
Proof. destruct a, b; simpl; split; congruence. Qed.
Lemma ptype_eqb_refl a : ptype_eqb a a = true.
Proof. destruct a; reflexivity. Qed.
Lemma ptype_eqb_neq a b : ptype_eqb a b = false <-> a <> b.
Proof. destruct a, b; simpl; split; congruence. Qed.

(** * Splitting *)
Lemma split_first_join : forall s c r,
  split_first s = Some (c, r) -> s = c ++ "::" ++ r.
Proof.
  induction s as [|a s IH]; simpl; intros c r H; [discriminate|].
  destruct s as [|b s'']; [discriminate|].
  destruct (Ascii.eqb a ":" && Ascii.eqb b ":")%bool eqn:E.
  - apply andb_true_iff in E. destruct E as [E1 E2].
    apply Ascii.eqb_eq in E1. apply Ascii.eqb_eq in E2. injection H as <- <-. subst. reflexivity.
  - destruct (split_first (String b s'')) as [[c' r']|] eqn:S; [|discriminate].
    injection H as <- <-. rewrite (IH c' r' eq_refl). reflexivity.
Qed.

Lemma split_first_length : forall s c r,
  split_first s = Some (c, r) -> String.length r < String.length s.
Proof.
  intros s c r H. apply split_first_join in H. subst.
  assert (A : forall a b, String.length (a ++ b) = String.length a + String.length b).
  { induction a; simpl; intros; auto. }
  rewrite A. simpl. lia.
Qed.

(** A child name as produced by the splitting: no "::" and no trailing ':'. *)
Definition good_child (c : string) : Prop :=
  split_first c = None /\ ends_with_colon c = false.

Lemma split_first_cons a b s :
  split_first (String a (String b s)) =
  if (Ascii.eqb a ":" && Ascii.eqb b ":")%bool then Some ("", s)
  else match split_first (String b s) with
       | Some (c, r) => Some (String a c, r) | None => None end.
Proof. reflexivity. Qed.

Lemma ends_cons a b s :
  ends_with_colon (String a (String b s)) = ends_with_colon (String b s).
Proof. reflexivity. Qed.

Lemma split_first_good : forall c r,
  good_child c -> split_first (c ++ "::" ++ r) = Some (c, r).
Proof.
  induction c as [|a c IH]; intros r [H1 H2].
  - reflexivity.
  - destruct c as [|b c'].
    + simpl. simpl in H2. rewrite H2. simpl. reflexivity.
    + rewrite split_first_cons in H1. rewrite ends_cons in H2.
      destruct (Ascii.eqb a ":" && Ascii.eqb b ":")%bool eqn:E; [discriminate|].
      change (String a (String b c') ++ "::" ++ r)
        with (String a (String b (c' ++ "::" ++ r))).
      rewrite split_first_cons, E.
      change (String b (c' ++ "::" ++ r)) with (String b c' ++ "::" ++ r).
      rewrite IH; [reflexivity|]. split; [|exact H2].
      destruct (split_first (String b c')) as [[? ?]|]; [discriminate|reflexivity].
Qed.

Lemma split_first_child_good : forall s c r,
  split_first s = Some (c, r) -> good_child c.
Proof.
  induction s as [|a s IH]; intros c r H; [discriminate|].
  destruct s as [|b s'']; [discriminate|].
  rewrite split_first_cons in H.
  destruct (Ascii.eqb a ":" && Ascii.eqb b ":")%bool eqn:E.
  - injection H as <- <-. split; reflexivity.
  - destruct (split_first (String b s'')) as [[c' r']|] eqn:S; [|discriminate].
    injection H as <- <-. destruct (IH c' r' eq_refl) as [G1 G2].
    pose proof (split_first_join _ _ _ S) as J.
    destruct c' as [|x c''].
    + simpl in J. injection J as Jb Js. split; [reflexivity|]. simpl.
      subst b. rewrite andb_true_r in E. exact E.
    + simpl in J. injection J as Jb Js. subst x. split.
      * rewrite split_first_cons, E, G1. reflexivity.
      * rewrite ends_cons. exact G2.
Qed.

(** Full decomposition of a name: child names and key. *)
Fixpoint comps_f (fuel : nat) (n : string) : list string * string :=
  match fuel with
  | O => ([], n)
  | S f => match split_first n with
           | Some (c, r) => let (cs, k) := comps_f f r in (c :: cs, k)
           | None => ([], n)
           end
  end.
Definition comps n := comps_f (S (String.length n)) n.

Lemma comps_f_enough : forall f n, String.length n < f ->
  forall g, String.length n < g -> comps_f f n = comps_f g n.
Proof.
  induction f; intros n H g Hg; [lia|]. destruct g; [lia|]. simpl.
  destruct (split_first n) as [[c r]|] eqn:E; [|reflexivity].
  apply split_first_length in E. rewrite (IHf r ltac:(lia) g ltac:(lia)). reflexivity.
Qed.

Lemma comps_split n c r : split_first n = Some (c, r) ->
  comps n = (c :: fst (comps r), snd (comps r)).
Proof.
  intros H. unfold comps at 1. simpl. rewrite H.
  pose proof (split_first_length _ _ _ H).
  rewrite (comps_f_enough (String.length n) r ltac:(lia) (S (String.length r)) ltac:(lia)).
  fold (comps r). destruct (comps r). reflexivity.
Qed.
Lemma comps_none n : split_first n = None -> comps n = ([], n).
Proof. intros H. unfold comps. simpl. rewrite H. reflexivity. Qed.

(** Induction along the splitting. *)
Lemma split_ind (P : string -> Prop) :
  (forall n, split_first n = None -> P n) ->
  (forall n c r, split_first n = Some (c, r) -> P r -> P n) ->
  forall n, P n.
Proof.
  intros H0 H1 n. remember (String.length n) as k eqn:Hk.
  revert n Hk. induction k as [k IH] using lt_wf_ind. intros n Hk.
  destruct (split_first n) as [[c r]|] eqn:E.
  - apply (H1 n c r E). eapply IH; [|reflexivity]. subst. eapply split_first_length; eauto.
  - auto.
Qed.

Fixpoint join (cs : list string) (k : string) : string :=
  match cs with [] => k | c :: cs' => c ++ "::" ++ join cs' k end.

Lemma join_comps n : join (fst (comps n)) (snd (comps n)) = n.
Proof.
  induction n as [n H|n c r H IH] using split_ind.
  - rewrite comps_none by auto. reflexivity.
  - rewrite (comps_split n c r H). simpl. rewrite IH. symmetry. apply split_first_join; auto.
Qed.

Lemma comps_inj n m : comps n = comps m -> n = m.
Proof. intros H. rewrite <- (join_comps n), <- (join_comps m), H. reflexivity. Qed.

Lemma comps_good n : Forall good_child (fst (comps n)) /\ split_first (snd (comps n)) = None.
Proof.
  induction n as [n H|n c r H [I1 I2]] using split_ind.
  - rewrite comps_none by auto. simpl. auto.
  - rewrite (comps_split n c r H). simpl. split; auto. constructor; auto.
    eapply split_first_child_good; eauto.
Qed.

Lemma comps_join cs k : Forall good_child cs -> split_first k = None ->
  comps (join cs k) = (cs, k).
Proof.
  induction cs as [|c cs IH]; simpl; intros H K.
  - apply comps_none; auto.
  - inversion H; subst. rewrite (comps_split _ c (join cs k)) by (apply split_first_good; auto).
    rewrite IH by auto. reflexivity.
Qed.

(** AddChild's decomposition. *)
Fixpoint acomps_f (fuel : nat) (n : string) : list string :=
  match fuel with
  | O => []
  | S f => let (c, r) := match split_first n with
                         | Some (c, r) => (c, r) | None => (n, "") end in
           if String.eqb r "" then [c] else c :: acomps_f f r
  end.
Definition acomps n := acomps_f (S (String.length n)) n.

Lemma acomps_f_enough : forall f n, String.length n < f ->
  forall g, String.length n < g -> acomps_f f n = acomps_f g n.
Proof.
  induction f; intros n H g Hg; [lia|]. destruct g; [lia|]. simpl.
  destruct (split_first n) as [[c r]|] eqn:E; [|reflexivity].
  apply split_first_length in E. rewrite (IHf r ltac:(lia) g ltac:(lia)). reflexivity.
Qed.

Lemma string_app_assoc a b c : (a ++ b) ++ c = a ++ b ++ c.
Proof. induction a; simpl; congruence. Qed.
Lemma string_app_nil a : a ++ "" = a.
Proof. induction a; simpl; congruence. Qed.

Lemma ends_app a b : b <> "" -> ends_with_colon (a ++ b) = ends_with_colon b.
Proof.
  intros H. induction a as [|x a IH]; simpl; [reflexivity|].
  destruct (a ++ b) eqn:E; [|auto].
  destruct a; simpl in E; [congruence|discriminate].
Qed.

Lemma acomps_spec n : ends_with_colon n = false ->
  Forall good_child (acomps n) /\ forall m, join (acomps n) m = n ++ "::" ++ m.
Proof.
  induction n as [n H|n c r H IH] using split_ind; intros E.
  - unfold acomps. simpl. rewrite H. simpl. split; [|reflexivity].
    constructor; [split; auto|constructor].
  - pose proof (split_first_join _ _ _ H) as J.
    assert (R : r <> "").
    { intros ->. subst n. change ("::" ++ "") with "::" in E. rewrite ends_app in E by discriminate. discriminate. }
    assert (Er : ends_with_colon r = false).
    { subst n. rewrite <- string_app_assoc in E. rewrite ends_app in E; auto. }
    destruct (IH Er) as [I1 I2].
    assert (U : acomps n = c :: acomps r).
    { unfold acomps at 1. simpl. rewrite H.
      destruct (String.eqb_spec r ""); [congruence|].
      pose proof (split_first_length _ _ _ H). f_equal. apply acomps_f_enough; lia. }
    rewrite U. split.
    + constructor; auto. eapply split_first_child_good; eauto.
    + intros m. simpl. rewrite I2. rewrite J. repeat rewrite string_app_assoc. reflexivity.
Qed.

Lemma join_app p q m : join (p ++ q) m = join p (join q m).
Proof. induction p; simpl; congruence. Qed.

(** * The store *)
Section Store.
  Context {D : Type}.
  Notation tree := (sparams D).

  Fixpoint tree_ind' (P : tree -> Prop)
    (H : forall o ch, Forall (fun p => P (snd p)) ch -> P (SParams o ch)) (t : tree) : P t :=
    match t with
    | SParams o ch =>
        H o ch ((fix go (l : list (string * tree)) : Forall (fun p => P (snd p)) l :=
                   match l with
                   | [] => Forall_nil _
                   | (c, t') :: r => Forall_cons (c, t') (tree_ind' P H t') (go r)
                   end) ch)
    end.

  (** ** lookups along decomposed names *)
  Fixpoint lookup (t : tree) (ty : ptype) (cs : list string) (k : string) : option (pval D) :=
    match cs with
    | [] => find_own (own t) ty k
    | c :: cs' => lookup (child_or_new (childs t) c) ty cs' k
    end.

  Lemma find_put_own (l : list (string * pval D)) n v ty m :
    find_own (put_own l n v) ty m =
    if (String.eqb m n && ptype_eqb ty (ptype_of v))%bool then Some v else find_own l ty m.
  Proof.
    induction l as [|[n' v'] l IH]; simpl.
    - destruct (String.eqb_spec m n); simpl; reflexivity.
    - destruct (String.eqb n n' && ptype_eqb (ptype_of v) (ptype_of v'))%bool eqn:E.
      + apply andb_true_iff in E. destruct E as [E1 E2].
        apply String.eqb_eq in E1. apply ptype_eqb_eq in E2. subst n'. simpl. rewrite <- E2.
        destruct (String.eqb m n && ptype_eqb ty (ptype_of v))%bool; reflexivity.
      + simpl. rewrite IH.
        destruct (String.eqb m n' && ptype_eqb ty (ptype_of v'))%bool eqn:F; [|reflexivity].
        destruct (String.eqb m n && ptype_eqb ty (ptype_of v))%bool eqn:G; [|reflexivity].
        apply andb_true_iff in F. apply andb_true_iff in G.
        destruct F as [F1 F2], G as [G1 G2].
        apply String.eqb_eq in F1. apply String.eqb_eq in G1.
        apply ptype_eqb_eq in F2. apply ptype_eqb_eq in G2. subst.
        rewrite String.eqb_refl in E; simpl in E; apply ptype_eqb_neq in E; congruence.
  Qed.

  Lemma child_put_same l c (t : tree) : child_or_new (put_child l c t) c = t.
  Proof.
    induction l as [|[c' t'] l IH]; simpl.
    - rewrite String.eqb_refl. reflexivity.
    - destruct (String.eqb c c') eqn:E; simpl.
      + rewrite String.eqb_refl. reflexivity.
      + rewrite E. exact IH.
  Qed.
  Lemma child_put_other l c (t : tree) d : c <> d ->
    child_or_new (put_child l c t) d = child_or_new l d.
  Proof.
    intros N. induction l as [|[c' t'] l IH]; simpl.
    - destruct (String.eqb_spec d c); [congruence|reflexivity].
    - destruct (String.eqb_spec c c'); simpl.
      + subst c'. destruct (String.eqb_spec d c); [congruence|]. reflexivity.
      + destruct (String.eqb d c'); auto.
  Qed.

  Lemma lookup_empty ty cs k : lookup (@empty_params D) ty cs k = None.
  Proof. induction cs; simpl; auto. Qed.

  (** equality of observable content *)
  Definition same (t u : tree) : Prop := forall ty cs k, lookup t ty cs k = lookup u ty cs k.

  Lemma same_put t c (ch : tree) :
    same ch (child_or_new (childs t) c) ->
    same (SParams (own t) (put_child (childs t) c ch)) t.
  Proof.
    intros H ty cs k. destruct cs as [|c' cs]; simpl; [reflexivity|].
    destruct (String.eqb_spec c c').
    - subst c'. rewrite child_put_same. apply H.
    - rewrite child_put_other by auto. reflexivity.
  Qed.

  (** unfolding equations (the C++ recursion, fuel removed) *)
  Lemma set_fuel : forall f t n v, String.length n < f ->
    forall g, String.length n < g -> @set_parameter D f t n v = set_parameter g t n v.
  Proof.
    induction f; intros t n v H g Hg; [lia|]. destruct g; [lia|]. simpl.
    destruct (split_first n) as [[c r]|] eqn:E; [|reflexivity].
    apply split_first_length in E. rewrite (IHf _ r v ltac:(lia) g ltac:(lia)). reflexivity.
  Qed.
  Lemma set_param_unfold (t : tree) n v :
    set_param t n v =
    match split_first n with
    | Some (c, r) => SParams (own t) (put_child (childs t) c
                       (set_param (child_or_new (childs t) c) r v))
    | None => SParams (put_own (own t) n v) (childs t)
    end.
  Proof.
    unfold set_param at 1. simpl. destruct (split_first n) as [[c r]|] eqn:E; [|reflexivity].
    apply split_first_length in E. unfold set_param. f_equal. f_equal. apply set_fuel; lia.
  Qed.

  Definition get_opt (t : tree) ty n := get_parameter_recursive (S (String.length n)) t ty n.
  Lemma get_fuel : forall f t ty n, String.length n < f ->
    forall g, String.length n < g ->
    @get_parameter_recursive D f t ty n = get_parameter_recursive g t ty n.
  Proof.
    induction f; intros t ty n H g Hg; [lia|]. destruct g; [lia|]. simpl.
    destruct (find_own (own t) ty n); [reflexivity|].
    destruct (split_first n) as [[c r]|] eqn:E; [|reflexivity].
    apply split_first_length in E. rewrite (IHf _ ty r ltac:(lia) g ltac:(lia)). reflexivity.
  Qed.
  Lemma get_opt_unfold (t : tree) ty n :
    get_opt t ty n =
    match find_own (own t) ty n with
    | Some v => (Some v, t)
    | None => match split_first n with
              | Some (c, r) =>
                  let (v, ch) := get_opt (child_or_new (childs t) c) ty r in
                  (v, SParams (own t) (put_child (childs t) c ch))
              | None => (None, t)
              end
    end.
  Proof.
    unfold get_opt at 1. simpl. destruct (find_own (own t) ty n); [reflexivity|].
    destruct (split_first n) as [[c r]|] eqn:E; [|reflexivity].
    apply split_first_length in E. unfold get_opt. rewrite (get_fuel _ _ ty r E (S (String.length r))) by lia.
    reflexivity.
  Qed.

  Lemma add_fuel : forall f t n, String.length n < f ->
    forall g, String.length n < g -> @add_child_rec D f t n = add_child_rec g t n.
  Proof.
    induction f; intros t n H g Hg; [lia|]. destruct g; [lia|]. simpl.
    destruct (split_first n) as [[c r]|] eqn:E; [|reflexivity].
    apply split_first_length in E. rewrite (IHf _ r ltac:(lia) g ltac:(lia)). reflexivity.
  Qed.
  Lemma add_child_unfold (t : tree) n :
    add_child t n =
    let (c, r) := match split_first n with Some (c, r) => (c, r) | None => (n, "") end in
    if String.eqb r "" then
      (SParams (own t) (put_child (childs t) c (child_or_new (childs t) c)), [c])
    else
      let (ch', p) := add_child (child_or_new (childs t) c) r in
      (SParams (own t) (put_child (childs t) c ch'), c :: p).
  Proof.
    unfold add_child at 1. simpl.
    destruct (split_first n) as [[c r]|] eqn:E; [|reflexivity].
    apply split_first_length in E. unfold add_child.
    rewrite (add_fuel _ _ r E (S (String.length r))) by lia. reflexivity.
  Qed.

  (** ** well-formed stores *)
  Definition own_keys (l : list (string * pval D)) := map (fun e => (ptype_of (snd e), fst e)) l.

  Inductive wf : tree -> Prop :=
  | wf_intro o ch :
      NoDup (own_keys o) ->
      Forall (fun e => split_first (fst e) = None) o ->
      NoDup (map fst ch) ->
      Forall (fun e => good_child (fst e)) ch ->
      Forall (fun e => wf (snd e)) ch ->
      wf (SParams o ch).

  Lemma wf_empty : wf empty_params.
  Proof. constructor; simpl; constructor. Qed.

  Lemma put_own_keys l n (v : pval D) x :
    In x (own_keys (put_own l n v)) <-> x = (ptype_of v, n) \/ In x (own_keys l).
  Proof.
    induction l as [|[n' v'] l IH]; simpl.
    - intuition.
    - destruct (String.eqb n n' && ptype_eqb (ptype_of v) (ptype_of v'))%bool eqn:E; simpl.
      + apply andb_true_iff in E. destruct E as [E1 E2].
        apply String.eqb_eq in E1. apply ptype_eqb_eq in E2. subst n'. rewrite <- E2. intuition.
      + rewrite IH. intuition.
  Qed.
  Lemma put_own_nodup l n (v : pval D) : NoDup (own_keys l) -> NoDup (own_keys (put_own l n v)).
  Proof.
    induction l as [|[n' v'] l IH]; simpl; intros H.
    - constructor; [intros []|constructor].
    - inversion H as [|? ? N H']; subst.
      destruct (String.eqb n n' && ptype_eqb (ptype_of v) (ptype_of v'))%bool eqn:E; simpl.
      + apply andb_true_iff in E. destruct E as [E1 E2].
        apply String.eqb_eq in E1. apply ptype_eqb_eq in E2. subst n'. rewrite E2. constructor; auto.
      + constructor; auto. rewrite put_own_keys. intros [X|X]; [|auto].
        injection X as X1 X2. rewrite X1, X2, String.eqb_refl, ptype_eqb_refl in E. discriminate.
  Qed.
  Lemma put_own_forall l n (v : pval D) (P : string * pval D -> Prop) :
    Forall P l -> P (n, v) -> Forall P (put_own l n v).
  Proof.
    induction l as [|[n' v'] l IH]; simpl; intros H1 H2; [repeat constructor; auto|].
    inversion H1; subst. destruct (_ && _)%bool; constructor; auto.
  Qed.
  Lemma put_child_keys l c (t : tree) x :
    In x (map fst (put_child l c t)) <-> x = c \/ In x (map fst l).
  Proof.
    induction l as [|[c' t'] l IH]; simpl; [intuition|].
    destruct (String.eqb_spec c c'); simpl; [subst; intuition|]. rewrite IH. intuition.
  Qed.
  Lemma put_child_nodup l c (t : tree) : NoDup (map fst l) -> NoDup (map fst (put_child l c t)).
  Proof.
    induction l as [|[c' t'] l IH]; simpl; intros H; [constructor; [intros []|constructor]|].
    inversion H; subst. destruct (String.eqb_spec c c'); simpl.
    - subst. constructor; auto.
    - constructor; auto. rewrite put_child_keys. intros [|]; [congruence|auto].
  Qed.
  Lemma put_child_forall l c (t : tree) (P : string * tree -> Prop) :
    Forall P l -> P (c, t) -> Forall P (put_child l c t).
  Proof.
    induction l as [|[c' t'] l IH]; simpl; intros H1 H2; [repeat constructor; auto|].
    inversion H1; subst. destruct (String.eqb_spec c c'); constructor; auto.
  Qed.
  Lemma child_wf t c : wf t -> wf (child_or_new (childs t) c).
  Proof.
    intros H. inversion H as [o ch _ _ _ _ F]; subst. simpl. clear H.
    induction ch as [|[c' t'] l IH]; simpl; [apply wf_empty|].
    inversion F; subst. destruct (String.eqb c c'); auto.
  Qed.
  Lemma put_wf t c ch : wf t -> good_child c -> wf ch -> wf (SParams (own t) (put_child (childs t) c ch)).
  Proof.
    intros H G C. inversion H; subst. simpl. constructor; auto.
    - apply put_child_nodup; auto.
    - apply put_child_forall; auto.
    - apply put_child_forall; auto.
  Qed.

  Lemma set_wf n v : forall t, wf t -> wf (set_param t n v).
  Proof.
    induction n as [n H|n c r H IH] using split_ind; intros t W; rewrite set_param_unfold, H.
    - inversion W; subst. simpl. constructor; auto.
      + apply put_own_nodup; auto.
      + apply put_own_forall; auto.
    - apply put_wf; auto.
      + eapply split_first_child_good; eauto.
      + apply IH. apply child_wf; auto.
  Qed.

  Definition path_eqb (a b : list string) : bool := if list_eq_dec string_dec a b then true else false.
  Lemma path_eqb_cons c a c' b : path_eqb (c :: a) (c' :: b) = (String.eqb c c' && path_eqb a b)%bool.
  Proof.
    unfold path_eqb. destruct (list_eq_dec string_dec (c :: a) (c' :: b)) as [E|N].
    - injection E as <- <-. rewrite String.eqb_refl. destruct (list_eq_dec string_dec a a); [reflexivity|congruence].
    - destruct (String.eqb_spec c c'); [|reflexivity]. destruct (list_eq_dec string_dec a b); [congruence|reflexivity].
  Qed.
  Lemma path_eqb_refl a : path_eqb a a = true.
  Proof. unfold path_eqb. destruct (list_eq_dec string_dec a a); [reflexivity|congruence]. Qed.
  Lemma path_eqb_true a b : path_eqb a b = true -> a = b.
  Proof. unfold path_eqb. destruct (list_eq_dec string_dec a b); [auto|discriminate]. Qed.

  Lemma set_lookup n v : forall t ty cs k,
    lookup (set_param t n v) ty cs k =
    if (ptype_eqb ty (ptype_of v) && (path_eqb cs (fst (comps n)) && String.eqb k (snd (comps n))))%bool
    then Some v else lookup t ty cs k.
  Proof.
    induction n as [n H|n c r H IH] using split_ind; intros t ty cs k; rewrite set_param_unfold, H.
    - rewrite (comps_none n H). simpl. destruct cs as [|c cs]; simpl.
      + rewrite find_put_own. rewrite andb_comm. reflexivity.
      + rewrite andb_false_r. reflexivity.
    - rewrite (comps_split n c r H). cbn [fst snd]. destruct cs as [|c' cs]; cbn [lookup own childs].
      + simpl. rewrite andb_false_r. reflexivity.
      + rewrite path_eqb_cons. destruct (String.eqb_spec c' c).
        * subst c'. rewrite child_put_same, IH. reflexivity.
        * rewrite child_put_other by auto. simpl. rewrite andb_false_r. reflexivity.
  Qed.

  Lemma find_own_none_split t ty n c r : wf t -> split_first n = Some (c, r) -> find_own (own t) ty n = None.
  Proof.
    intros W H. inversion W as [o ch _ F _ _ _]; subst. simpl. clear W.
    induction o as [|[n' v'] o IH]; simpl; [reflexivity|].
    inversion F; subst. destruct (String.eqb_spec n n'); [simpl in *; congruence|]. simpl. auto.
  Qed.

  Lemma get_spec n : forall t ty, wf t ->
    fst (get_opt t ty n) = lookup t ty (fst (comps n)) (snd (comps n)) /\
    wf (snd (get_opt t ty n)) /\ same (snd (get_opt t ty n)) t.
  Proof.
    induction n as [n H|n c r H IH] using split_ind; intros t ty W; rewrite get_opt_unfold, H.
    - rewrite (comps_none n H). simpl. destruct (find_own (own t) ty n); simpl;
      split; auto; split; auto; intros ? ? ?; reflexivity.
    - rewrite (find_own_none_split t ty n c r W H), (comps_split n c r H). simpl.
      specialize (IH (child_or_new (childs t) c) ty (child_wf t c W)).
      destruct (get_opt (child_or_new (childs t) c) ty r) as [o ch]. simpl in *.
      destruct IH as [I1 [I2 I3]]. split; auto. split.
      + apply put_wf; auto. eapply split_first_child_good; eauto.
      + apply same_put. exact I3.
  Qed.

  Lemma add_spec n : ends_with_colon n = false -> forall t, wf t ->
    snd (add_child t n) = acomps n /\ wf (fst (add_child t n)) /\ same (fst (add_child t n)) t.
  Proof.
    induction n as [n H|n c r H IH] using split_ind; intros E t W; rewrite add_child_unfold, H.
    - simpl. unfold acomps. simpl. rewrite H. simpl. split; auto. split.
      + apply put_wf; auto; [split; auto|apply child_wf; auto].
      + apply same_put. intros ? ? ?; reflexivity.
    - pose proof (split_first_join _ _ _ H) as J.
      assert (R : r <> "").
      { intros ->. subst n. change ("::" ++ "") with "::" in E. rewrite ends_app in E by discriminate. discriminate. }
      assert (Er : ends_with_colon r = false).
      { subst n. rewrite <- string_app_assoc in E. rewrite ends_app in E; auto. }
      destruct (String.eqb_spec r ""); [congruence|].
      specialize (IH Er (child_or_new (childs t) c) (child_wf t c W)).
      destruct (add_child (child_or_new (childs t) c) r) as [ch p]. simpl in *.
      destruct IH as [I1 [I2 I3]]. split; [|split].
      + unfold acomps at 1. simpl. rewrite H. destruct (String.eqb_spec r ""); [congruence|].
        rewrite I1. pose proof (split_first_length _ _ _ H). f_equal. apply acomps_f_enough; lia.
      + apply put_wf; auto. eapply split_first_child_good; eauto.
      + apply same_put. exact I3.
  Qed.

  (** ** calls through handles *)
  Lemma at_path_spec {X} (f : tree -> X * tree) p : Forall good_child p ->
    forall t, wf t -> (forall u, wf u -> wf (snd (f u))) ->
    wf (snd (at_path p f t)) /\
    exists u, wf u /\ (forall ty cs k, lookup u ty cs k = lookup t ty (p ++ cs) k) /\
      fst (at_path p f t) = fst (f u) /\
      (forall ty cs k, lookup (snd (at_path p f t)) ty (p ++ cs) k = lookup (snd (f u)) ty cs k) /\
      (forall ty cs k, (forall cs', cs <> (p ++ cs')%list) ->
         lookup (snd (at_path p f t)) ty cs k = lookup t ty cs k).
  Proof.
    induction p as [|c p IH]; intros G t W F; simpl.
    - split; auto. exists t. repeat split; auto.
      intros ty cs k N. exfalso. apply (N cs). reflexivity.
    - inversion G; subst. specialize (IH H2 (child_or_new (childs t) c) (child_wf t c W) F).
      destruct (at_path p f (child_or_new (childs t) c)) as [x ch]. simpl in *.
      destruct IH as [I1 [u [U1 [U2 [U3 [U4 U5]]]]]]. split.
      + apply put_wf; auto.
      + exists u. split; auto. split; auto. split; auto. split.
        * intros ty cs k. rewrite child_put_same. auto.
        * intros ty cs k N. destruct cs as [|c' cs]; simpl; [reflexivity|].
          destruct (String.eqb_spec c c').
          -- subst c'. rewrite child_put_same. apply U5. intros cs' ->. apply (N cs'). reflexivity.
          -- rewrite child_put_other by auto. reflexivity.
  Qed.

  Lemma prefix_dec (p cs : list string) : (exists cs', cs = (p ++ cs')%list) \/ (forall cs', cs <> (p ++ cs')%list).
  Proof.
    revert cs. induction p as [|c p IH]; intros cs.
    - left. exists cs. reflexivity.
    - destruct cs as [|c' cs]; [right; intros ? ?; discriminate|].
      destruct (string_dec c c'); [subst c'|right; intros ? X; injection X; intros; congruence].
      destruct (IH cs) as [[cs' ->]|N]; [left; exists cs'; reflexivity|].
      right. intros cs' X. injection X as X. eapply N; eauto.
  Qed.

  (** ** refinement of the flat log *)
  Definition agrees (t : tree) (log : list (string * pval D)) : Prop :=
    forall ty n, lookup t ty (fst (comps n)) (snd (comps n)) = last_assigned log ty n.

  Lemma last_assigned_app log n v ty m :
    @last_assigned D (log ++ [(n, v)]) ty m =
    if (String.eqb m n && ptype_eqb ty (ptype_of v))%bool then Some v else last_assigned log ty m.
  Proof.
    induction log as [|[a b] log IH]; simpl.
    - destruct (_ && _)%bool; reflexivity.
    - rewrite IH. destruct (String.eqb m n && ptype_eqb ty (ptype_of v))%bool; reflexivity.
  Qed.

  Lemma agrees_same t u log : same t u -> agrees u log -> agrees t log.
  Proof. intros S A ty n. rewrite S. apply A. Qed.

  Lemma comps_prefix p n : Forall good_child p ->
    comps (join p n) = ((p ++ fst (comps n))%list, snd (comps n)).
  Proof.
    intros G. induction p as [|c p IH]; simpl; [apply surjective_pairing|].
    inversion G; subst. rewrite (comps_split _ c (join p n)) by (apply split_first_good; auto).
    rewrite IH by auto. reflexivity.
  Qed.

  Record related (s : pstate D) (f : fstate D) : Prop := {
    r_wf : wf (ptree s);
    r_log : agrees (ptree s) (flog f);
    r_h : Forall2 (fun p pre => Forall good_child p /\ forall m, join p m = pre ++ m)
                  (phandles s) (fprefix f)
  }.

  Lemma related_start : related pstart fstart.
  Proof.
    split; simpl.
    - apply wf_empty.
    - intros ty n. apply lookup_empty.
    - constructor; [|constructor]. split; [constructor|]. intros; reflexivity.
  Qed.

  Lemma Forall2_nth_error {A B} (P : A -> B -> Prop) l l' h :
    Forall2 P l l' ->
    match nth_error l h, nth_error l' h with
    | Some a, Some b => P a b
    | None, None => True
    | _, _ => False
    end.
  Proof.
    intros H. revert h. induction H; intros [|h]; simpl; auto.
    apply IHForall2.
  Qed.

  Lemma step_related s f o : related s f -> good_op o ->
    fst (pstep s o) = fst (fstep f o) /\ related (snd (pstep s o)) (snd (fstep f o)).
  Proof.
    intros [W A H] G.
    destruct o as [h n v|h n d|h n]; simpl;
      pose proof (Forall2_nth_error _ _ _ h H) as N;
      destruct (nth_error (phandles s) h) as [p|], (nth_error (fprefix f) h) as [pre|]; simpl;
      try contradiction; try (split; [reflexivity|split; auto]; fail);
      destruct N as [N1 N2].
    - pose proof (at_path_spec (fun t => (tt, set_param t n v)) p N1 (ptree s) W
                   (fun u Hu => set_wf n v u Hu)) as [Q1 [u [U1 [U2 [U3 [U4 U5]]]]]].
      destruct (at_path p _ (ptree s)) as [x t']. simpl in *. split; [reflexivity|].
      split; simpl; auto. intros ty m. rewrite last_assigned_app. rewrite <- A.
      rewrite <- N2.
      destruct (String.eqb_spec m (join p n)).
      + subst m. rewrite (comps_prefix p n N1). simpl. rewrite U4, set_lookup.
        rewrite path_eqb_refl, String.eqb_refl, andb_true_r. rewrite U2. reflexivity.
      + simpl. destruct (prefix_dec p (fst (comps m))) as [[cs' E]|E].
        * rewrite E. rewrite U4, set_lookup, U2.
          destruct (path_eqb cs' (fst (comps n))) eqn:e; [apply path_eqb_true in e|rewrite andb_false_r; reflexivity].
          destruct (String.eqb_spec (snd (comps m)) (snd (comps n))); [|rewrite andb_false_r; reflexivity].
          exfalso. apply n0. apply comps_inj. rewrite (comps_prefix p n N1).
          rewrite <- e, <- e0, <- E. apply surjective_pairing.
        * apply U5. exact E.
    - assert (GW : forall u, wf u -> wf (snd (get_param u n d))).
      { intros u Hu. pose proof (get_spec n u (ptype_of d) Hu) as [_ [X _]].
        unfold get_param, get_opt in *. destruct (get_parameter_recursive _ u _ n). exact X. }
      pose proof (at_path_spec (fun t => get_param t n d) p N1 (ptree s) W GW)
        as [Q1 [u [U1 [U2 [U3 [U4 U5]]]]]].
      destruct (at_path p _ (ptree s)) as [x t']. simpl in *.
      pose proof (get_spec n u (ptype_of d) U1) as [G1 [G2 G3]].
      unfold get_param, get_opt in *. destruct (get_parameter_recursive _ u _ n) as [o u']. simpl in *.
      split.
      + subst x. f_equal. rewrite G1, U2. rewrite <- N2, <- A, (comps_prefix p n N1). reflexivity.
      + split; simpl; auto. eapply agrees_same; [|exact A].
        intros ty cs k. destruct (prefix_dec p cs) as [[cs' E]|E].
        * rewrite E, U4, G3, U2. reflexivity.
        * apply U5. exact E.
    - simpl in G.
      assert (GW : forall u, wf u -> wf (snd (let (t', q) := add_child u n in (q, t')))).
      { intros u Hu. pose proof (add_spec n G u Hu) as [_ [X _]]. destruct (add_child u n). exact X. }
      pose proof (at_path_spec (fun t => let (t', q) := add_child t n in (q, t')) p N1 (ptree s) W GW)
        as [Q1 [u [U1 [U2 [U3 [U4 U5]]]]]].
      destruct (at_path p _ (ptree s)) as [q t']. simpl in *.
      pose proof (add_spec n G u U1) as [G1 [G2 G3]].
      destruct (add_child u n) as [u' q']. simpl in *.
      split; [reflexivity|]. split; simpl; auto.
      + eapply agrees_same; [|exact A].
        intros ty cs k. destruct (prefix_dec p cs) as [[cs' E]|E].
        * rewrite E, U4, G3, U2. reflexivity.
        * apply U5. exact E.
      + apply Forall2_app; auto. constructor; [|constructor].
        destruct (acomps_spec n G) as [A1 A2]. subst q q'. split.
        * apply Forall_app; auto.
        * intros m. rewrite join_app, A2, N2. repeat rewrite string_app_assoc. reflexivity.
  Qed.

  Lemma run_related l : forall s f, related s f -> Forall good_op l ->
    fst (prun s l) = fst (frun f l) /\ related (snd (prun s l)) (snd (frun f l)).
  Proof.
    induction l as [|o l IH]; simpl; intros s f R G; [auto|].
    inversion G; subst. pose proof (step_related s f o R H1) as [E R'].
    destruct (pstep s o) as [x s'], (fstep f o) as [y f']. simpl in *. subst y.
    pose proof (IH s' f' R' H2) as [E' R''].
    destruct (prun s' l), (frun f' l). simpl in *. subst. auto.
  Qed.

  (** ** the condensed list *)
  Fixpoint children_condensed (l : list (string * tree)) : list (string * pval D) :=
    match l with
    | [] => []
    | (c, t') :: r => (map (fun e => ((c ++ "::" ++ fst e)%string, snd e)) (condensed t')
                       ++ children_condensed r)%list
    end.
  Definition own_condensed (o : list (string * pval D)) :=
    (of_type TBool o ++ of_type TInt o ++ of_type TReal o ++
     of_type TString o ++ of_type TListList o ++ of_type TList o)%list.

  Lemma condensed_unfold t : condensed t = (own_condensed (own t) ++ children_condensed (childs t))%list.
  Proof.
    destruct t as [o ch]. simpl. unfold own_condensed. repeat rewrite <- app_assoc.
    reflexivity.
  Qed.

  Lemma in_own_condensed o e : In e (own_condensed o) <-> In e o.
  Proof.
    unfold own_condensed, of_type. rewrite !in_app_iff, !filter_In. destruct e as [n v]. simpl.
    destruct v; simpl; intuition discriminate.
  Qed.

  Definition key (e : string * pval D) := (ptype_of (snd e), fst e).

  Lemma in_find_own o ty n v : NoDup (own_keys o) ->
    (In (n, v) o /\ ptype_of v = ty <-> find_own o ty n = Some v).
  Proof.
    induction o as [|[n' v'] o IH]; simpl; intros ND.
    - split; [intros [[] _]|discriminate].
    - inversion ND as [|? ? N ND']; subst. specialize (IH ND').
      destruct (String.eqb n n' && ptype_eqb ty (ptype_of v'))%bool eqn:E.
      + apply andb_true_iff in E. destruct E as [E1 E2].
        apply String.eqb_eq in E1. apply ptype_eqb_eq in E2. subst.
        split.
        * intros [[X|X] T]; [congruence|]. exfalso. apply N. unfold own_keys. apply in_map_iff.
          exists (n', v). simpl. rewrite T. auto.
        * intros X. injection X as ->. auto.
      + rewrite <- IH. split; intros [X T]; split; auto.
        destruct X as [X|X]; auto. injection X as -> ->. subst ty.
        rewrite String.eqb_refl, ptype_eqb_refl in E. discriminate.
  Qed.

  Lemma child_in l c (t : tree) : NoDup (map fst l) -> In (c, t) l -> child_or_new l c = t.
  Proof.
    induction l as [|[c' t'] l IH]; simpl; intros ND I; [contradiction|].
    inversion ND; subst. destruct I as [I|I].
    - injection I as -> ->. rewrite String.eqb_refl. reflexivity.
    - destruct (String.eqb_spec c c'); [|auto]. subst. exfalso. apply H1.
      apply in_map_iff. exists (c', t). auto.
  Qed.
  Lemma child_not_in l c : ~ In c (map fst l) -> child_or_new l c = @empty_params D.
  Proof.
    induction l as [|[c' t'] l IH]; simpl; intros N; [reflexivity|].
    destruct (String.eqb_spec c c'); [subst; exfalso; auto|auto].
  Qed.

  Lemma in_children_condensed l n v : 
    In (n, v) (children_condensed l) <->
    exists c t r, In (c, t) l /\ In (r, v) (condensed t) /\ n = c ++ "::" ++ r.
  Proof.
    induction l as [|[c t] l IH]; simpl; [split; [intros []|intros (? & ? & ? & [] & _)]|].
    rewrite in_app_iff, in_map_iff, IH. split.
    - intros [([r v'] & E & I)|(c' & t' & r & I1 & I2 & I3)].
      + simpl in E. injection E as <- <-. exists c, t, r. auto.
      + exists c', t', r. auto.
    - intros (c' & t' & r & [X|X] & I2 & I3).
      + injection X as <- <-. left. exists (r, v). subst. auto.
      + right. exists c', t', r. auto.
  Qed.

  Lemma in_condensed : forall t, wf t -> forall n v,
    In (n, v) (condensed t) <-> lookup t (ptype_of v) (fst (comps n)) (snd (comps n)) = Some v.
  Proof.
    induction t as [o ch IH] using tree_ind'. intros W n v. rewrite condensed_unfold.
    inversion W as [? ? W1 W2 W3 W4 W5]; subst. rewrite in_app_iff, in_own_condensed, in_children_condensed. simpl.
    destruct (split_first n) as [[c r]|] eqn:E.
    - rewrite (comps_split n c r E). simpl. split.
      + intros [X|(c' & t' & r' & I1 & I2 & I3)].
        * rewrite Forall_forall in W2. apply W2 in X. simpl in X. congruence.
        * assert (G : good_child c') by (rewrite Forall_forall in W4; apply (W4 (c', t') I1)).
          pose proof (split_first_good c' r' G) as SG; simpl in SG; rewrite I3, SG in E. injection E as -> ->.
          rewrite (child_in ch c t') by auto.
          rewrite Forall_forall in IH. apply (IH (c, t') I1); auto.
          rewrite Forall_forall in W5. apply (W5 (c, t') I1).
      + intros L. right. 
        destruct (in_dec string_dec c (map fst ch)) as [I|I].
        * apply in_map_iff in I. destruct I as [[c' t'] [X I]]. simpl in X. subst c'.
          rewrite (child_in ch c t') in L by auto.
          exists c, t', r. split; auto. split; [|apply split_first_join; auto].
          rewrite Forall_forall in IH. apply (IH (c, t') I); auto.
          rewrite Forall_forall in W5. apply (W5 (c, t') I).
        * rewrite child_not_in in L by auto. rewrite lookup_empty in L. discriminate.
    - rewrite (comps_none n E). simpl. rewrite <- in_find_own by auto. split.
      + intros [X|(c' & t' & r' & I1 & I2 & I3)]; auto.
        assert (G : good_child c') by (rewrite Forall_forall in W4; apply (W4 (c', t') I1)).
        pose proof (split_first_good c' r' G) as SG; simpl in SG; rewrite I3, SG in E. discriminate.
      + intros [X _]. auto.
  Qed.

  (** keys are unique *)
  Lemma nodup_app {A} (a b : list A) : NoDup a -> NoDup b ->
    (forall x, In x a -> In x b -> False) -> NoDup (a ++ b).
  Proof.
    induction a as [|x a IH]; simpl; intros Ha Hb Hd; auto.
    inversion Ha; subst. constructor.
    - rewrite in_app_iff. intros [|]; [auto|]. eapply Hd; eauto.
    - apply IH; auto. intros y Y1 Y2. eapply Hd; eauto.
  Qed.
  Lemma nodup_filter_map {A B} (f : A -> B) (p : A -> bool) l :
    NoDup (map f l) -> NoDup (map f (filter p l)).
  Proof.
    induction l as [|x l IH]; simpl; intros H; auto. inversion H; subst.
    destruct (p x); simpl; auto. constructor; auto. intros I. apply H2.
    apply in_map_iff in I. destruct I as [y [E I]]. apply filter_In in I.
    apply in_map_iff. exists y. tauto.
  Qed.

  Lemma of_type_key ty o x : In x (own_keys (of_type ty o)) -> fst x = ty /\ In x (own_keys o).
  Proof.
    unfold own_keys, of_type. rewrite !in_map_iff. intros [e [E I]]. apply filter_In in I.
    destruct I as [I T]. apply ptype_eqb_eq in T. subst x. simpl. split; auto. exists e. auto.
  Qed.

  Lemma own_condensed_nodup o : NoDup (own_keys o) -> NoDup (own_keys (own_condensed o)).
  Proof.
    intros H. unfold own_condensed, own_keys. rewrite !map_app.
    repeat (apply nodup_app; [apply nodup_filter_map; exact H| |]).
    - apply nodup_filter_map; exact H.
    - intros x X1 X2. apply of_type_key in X1. apply of_type_key in X2. destruct X1, X2. congruence.
    - intros x X1 X2. apply of_type_key in X1.
      repeat (apply in_app_iff in X2; destruct X2 as [X2|X2]; [apply of_type_key in X2; destruct X1, X2; congruence|]).
      apply of_type_key in X2; destruct X1, X2; congruence.
    - intros x X1 X2. apply of_type_key in X1.
      repeat (apply in_app_iff in X2; destruct X2 as [X2|X2]; [apply of_type_key in X2; destruct X1, X2; congruence|]).
      apply of_type_key in X2; destruct X1, X2; congruence.
    - intros x X1 X2. apply of_type_key in X1.
      repeat (apply in_app_iff in X2; destruct X2 as [X2|X2]; [apply of_type_key in X2; destruct X1, X2; congruence|]).
      apply of_type_key in X2; destruct X1, X2; congruence.
    - intros x X1 X2. apply of_type_key in X1.
      repeat (apply in_app_iff in X2; destruct X2 as [X2|X2]; [apply of_type_key in X2; destruct X1, X2; congruence|]).
      apply of_type_key in X2; destruct X1, X2; congruence.
  Qed.

  Lemma string_app_cancel a b c : a ++ b = a ++ c -> b = c.
  Proof. induction a; simpl; intros H; auto. injection H; auto. Qed.

  Lemma nodup_map_inj {A B} (f : A -> B) l :
    (forall x y, f x = f y -> x = y) -> NoDup l -> NoDup (map f l).
  Proof.
    intros I H. induction H; simpl; constructor; auto.
    rewrite in_map_iff. intros [y [E Y]]. apply I in E. subst. auto.
  Qed.

  Lemma condensed_nodup : forall t, wf t -> NoDup (map key (condensed t)).
  Proof.
    induction t as [o ch IH] using tree_ind'. intros W. rewrite condensed_unfold, map_app. simpl.
    inversion W as [? ? W1 W2 W3 W4 W5]; subst.
    apply nodup_app.
    - apply (own_condensed_nodup o W1).
    - clear W W1 W2. induction ch as [|[c t'] ch IHc]; simpl; [constructor|].
      inversion IH; subst. inversion W3; subst. inversion W4; subst. inversion W5; subst. simpl in *.
      rewrite map_app. apply nodup_app.
      + rewrite map_map.
        change (NoDup (map (fun e => (fun x : ptype * string => (fst x, c ++ "::" ++ snd x)) (key e)) (condensed t'))).
        rewrite <- (map_map key (fun x : ptype * string => (fst x, c ++ "::" ++ snd x))). apply nodup_map_inj; auto.
        intros [a b] [a' b'] E. simpl in E. injection E as <- E.
        apply string_app_cancel in E. injection E as <-. reflexivity.
      + auto.
      + intros x X1 X2. rewrite map_map in X1. apply in_map_iff in X1. destruct X1 as [[n v] [E1 X1]].
        apply in_map_iff in X2. destruct X2 as [[m w] [E2 X2]].
        apply in_children_condensed in X2. destruct X2 as (c' & u & r & I1 & I2 & I3).
        unfold key in *. simpl in *. subst x. injection E2 as _ E2. subst m.
        assert (G : good_child c') by (rewrite Forall_forall in H6; apply (H6 (c', u) I1)).
        pose proof (split_first_good c n H5) as S1. pose proof (split_first_good c' r G) as S2.
        simpl in S1, S2. rewrite I3 in S1 || rewrite E2 in S1. rewrite S2 in S1. injection S1 as Ec _.
        apply H3. rewrite <- Ec. apply in_map_iff. exists (c', u). auto.
    - intros x X1 X2. apply in_map_iff in X1. destruct X1 as [[n v] [E1 X1]].
      apply in_map_iff in X2. destruct X2 as [[m w] [E2 X2]].
      rewrite in_own_condensed in X1. rewrite Forall_forall in W2. apply W2 in X1.
      apply in_children_condensed in X2. destruct X2 as (c' & u & r & I1 & I2 & I3).
      unfold key in *. simpl in *. subst x. injection E2 as _ E2. subst m.
      assert (G : good_child c') by (rewrite Forall_forall in W4; apply (W4 (c', u) I1)).
      pose proof (split_first_good c' r G) as S2. simpl in S2. congruence.
  Qed.

  (** ** loading a list *)
  Lemma of_list_log l : forall t log, agrees t log -> wf t ->
    agrees (fold_left (fun t e => set_param t (fst e) (snd e)) l t) (log ++ l) /\
    wf (fold_left (fun t e => set_param t (fst e) (snd e)) l t).
  Proof.
    induction l as [|[n v] l IH]; simpl; intros t log A W.
    - rewrite app_nil_r. auto.
    - specialize (IH (set_param t n v) (log ++ [(n, v)])%list). rewrite <- app_assoc in IH. simpl in IH.
      apply IH; [|apply set_wf; auto].
      intros ty m. rewrite last_assigned_app, set_lookup, A.
      destruct (String.eqb_spec m n).
      + subst. rewrite path_eqb_refl, String.eqb_refl, andb_true_r. reflexivity.
      + destruct (path_eqb (fst (comps m)) (fst (comps n))) eqn:e; [|rewrite andb_false_r; reflexivity].
        destruct (String.eqb_spec (snd (comps m)) (snd (comps n))); [|rewrite andb_false_r; reflexivity].
        exfalso. apply n0. apply comps_inj. apply path_eqb_true in e.
        rewrite (surjective_pairing (comps m)), (surjective_pairing (comps n)). congruence.
  Qed.

  Lemma of_list_spec l : agrees (of_list l) l /\ wf (of_list l).
  Proof.
    apply (of_list_log l empty_params []); [|apply wf_empty].
    intros ty n. apply lookup_empty.
  Qed.

  Lemma last_assigned_in l ty n v : NoDup (map key l) ->
    (last_assigned l ty n = Some v <-> In (n, v) l /\ ptype_of v = ty).
  Proof.
    induction l as [|[m w] l IH]; simpl; intros ND; [split; [discriminate|intros [[] _]]|].
    inversion ND as [|? ? N ND']; subst. specialize (IH ND').
    destruct (last_assigned l ty n) as [x|] eqn:L.
    - split.
      + intros E. injection E as ->. apply IH in L || idtac. destruct (proj1 IH eq_refl). auto.
      + intros [[E|I] T]; [|f_equal; symmetry; assert (X : Some x = Some v) by (apply IH; auto); congruence].
        exfalso. injection E as -> ->. apply N.
        assert (exists u, last_assigned l ty n = Some u) as [u U] by eauto.
        clear IH. apply in_map_iff. 
        assert (Q : forall l, last_assigned l ty n = Some x -> In (n, x) l /\ ptype_of x = ty).
        { clear. induction l as [|[m w] l IH]; simpl; [discriminate|].
          destruct (last_assigned l ty n) eqn:E; intros H.
          - injection H as ->. destruct (IH eq_refl). auto.
          - destruct (String.eqb_spec n m); simpl in H; [|discriminate].
            destruct (ptype_eqb ty (ptype_of w)) eqn:F; [|discriminate].
            apply ptype_eqb_eq in F. injection H as ->. subst. auto. }
        destruct (Q l L) as [Q1 Q2]. exists (n, x). unfold key. simpl. split; auto. congruence.
    - destruct (String.eqb_spec n m); simpl.
      + subst m. destruct (ptype_eqb ty (ptype_of w)) eqn:F.
        * apply ptype_eqb_eq in F. split; [intros E; injection E as ->; auto|].
          intros [[E|I] T]; [congruence|]. exfalso. assert (X : None = Some v) by (apply IH; auto). discriminate.
        * split; [discriminate|]. intros [[E|I] T].
          -- injection E as ->. apply ptype_eqb_neq in F. congruence.
          -- apply IH; auto.
      + split; [discriminate|]. intros [[E|I] T]; [congruence|apply IH; auto].
  Qed.

  Lemma last_assigned_perm l l' ty n : NoDup (map key l) -> Permutation l l' ->
    last_assigned l ty n = last_assigned l' ty n.
  Proof.
    intros ND P. assert (ND' : NoDup (map key l')).
    { eapply Permutation_NoDup; [|exact ND]. apply Permutation_map; auto. }
    destruct (last_assigned l ty n) as [v|] eqn:E.
    - symmetry. apply last_assigned_in; auto. apply last_assigned_in in E; auto.
      destruct E; split; auto. eapply Permutation_in; eauto.
    - destruct (last_assigned l' ty n) as [v|] eqn:E'; [|reflexivity].
      apply last_assigned_in in E'; auto. destruct E' as [E1 E2].
      assert (X : last_assigned l ty n = Some v).
      { apply last_assigned_in; auto. split; auto. eapply Permutation_in; [symmetry|]; eauto. }
      congruence.
  Qed.

  Lemma lookup_type : forall t ty cs k v, lookup t ty cs k = Some v -> ptype_of v = ty.
  Proof.
    intros t ty cs. revert t. induction cs as [|c cs IH]; simpl; intros t k v H; [|eauto].
    induction (own t) as [|[m w] l IHl]; simpl in H; [discriminate|].
    destruct (String.eqb k m && ptype_eqb ty (ptype_of w))%bool eqn:E; auto.
    apply andb_true_iff in E. destruct E as [_ E]. apply ptype_eqb_eq in E. congruence.
  Qed.

  Lemma condensed_agrees t : wf t -> agrees t (condensed t).
  Proof.
    intros W ty n. destruct (lookup t ty _ _) as [v|] eqn:L.
    - symmetry. apply last_assigned_in; [apply condensed_nodup; auto|].
      pose proof (lookup_type _ _ _ _ _ L). subst ty. split; auto. apply in_condensed; auto.
    - destruct (last_assigned (condensed t) ty n) as [v|] eqn:E; [|reflexivity].
      apply last_assigned_in in E; [|apply condensed_nodup; auto]. destruct E as [E <-].
      apply in_condensed in E; auto. congruence.
  Qed.

  Lemma reload_agrees t l : wf t -> Permutation (condensed t) l -> 
    forall ty n, lookup (of_list l) ty (fst (comps n)) (snd (comps n)) =
                 lookup t ty (fst (comps n)) (snd (comps n)).
  Proof.
    intros W P ty n. destruct (of_list_spec l) as [A _]. rewrite A, (condensed_agrees t W).
    symmetry. apply last_assigned_perm; auto. apply condensed_nodup; auto.
  Qed.

  Lemma get_param_value t n d : wf t ->
    fst (get_param t n d) = match lookup t (ptype_of d) (fst (comps n)) (snd (comps n)) with
                            | Some v => v | None => d end.
  Proof.
    intros W. destruct (get_spec n t (ptype_of d) W) as [E _]. unfold get_param, get_opt in *.
    destruct (get_parameter_recursive _ t _ n). simpl in *. rewrite E. reflexivity.
  Qed.

  Lemma condensed_perm t u : wf t -> wf u ->
    (forall ty n, lookup t ty (fst (comps n)) (snd (comps n)) = lookup u ty (fst (comps n)) (snd (comps n))) ->
    Permutation (condensed t) (condensed u).
  Proof.
    intros W U H. apply NoDup_Permutation.
    - eapply NoDup_map_inv. apply condensed_nodup; eauto.
    - eapply NoDup_map_inv. apply condensed_nodup; eauto.
    - intros [n v]. rewrite !in_condensed by auto. rewrite H. reflexivity.
  Qed.

End Store.
