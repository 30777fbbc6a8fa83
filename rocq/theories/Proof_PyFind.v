(** FindKey and HasEqualParamsAs. *)

From Coq Require Import String Ascii List Arith Lia Bool QArith ZArith.
Import ListNotations.
From Verif Require Import Model_BenchRun Proof_BenchRun Model_Params Model_PyParams Spec_PyParams Proof_PyAccess Proof_PyGet Proof_PyConv Proof_PyCond.
Local Open Scope string_scope.
Local Open Scope nat_scope.
Local Open Scope list_scope.

(* ---- FindKey ---- *)
Definition named (d : list (string * json)) (name : string) (ks : list string) : Prop :=
  exists j, lookup (JDict d) (ks ++ [name]) = Some j /\ is_dict j = false.
Definition find_spec (d : list (string * json)) (name : string) (r : option string) : Prop :=
  match r with
  | Some s => exists ks, s = join (ks ++ [name]) /\ named d name ks
  | None => forall ks, ~ named d name ks
  end.

Definition find_each (n : nat) (h : heap) (name : string) := fix each (st : store) : option (option string) :=
             match st with
             | [] => Some None
             | (k, PServer c) :: r =>
                 match find_key n h c name with
                 | None => None
                 | Some (Some f) => if String.eqb f EmptyString then each r else Some (Some (k ++ "::" ++ f)%string)
                 | Some None => each r
                 end
             | (k, _) :: r => if String.eqb name k then Some (Some name) else each r
             end.

Lemma named_clean d name ks : clean_dict d -> named d name ks -> cleans (ks ++ [name]).
Proof. intros C (j & H & _). eapply lookup_clean; [apply cv_dict; exact C|exact H]. Qed.
Lemma named_head_other k j d name ks : named d name ks -> ~ In k (map fst d) -> named ((k, j) :: d) name ks.
Proof.
  intros (x & H & N) Nk. exists x. split; [|assumption]. destruct (ks ++ [name]) as [|a r] eqn:E; [now destruct ks|].
  cbn in *. destruct (String.eqb k a) eqn:Q; [|assumption]. apply String.eqb_eq in Q as ->.
  destruct (jget d a) eqn:G; [|discriminate]. apply jget_in in G. contradiction.
Qed.
Lemma named_cons k j d name ks : named ((k, j) :: d) name ks ->
  (exists x, ks = [] /\ k = name /\ j = x /\ is_dict x = false) \/ (exists e r, j = JDict e /\ ks = k :: r /\ named e name r) \/ named d name ks.
Proof.
  intros (x & H & N). destruct ks as [|a r].
  - cbn in H. destruct (String.eqb k name) eqn:E.
    + apply String.eqb_eq in E as ->. injection H as ->. left. exists x. auto.
    + right. right. exists x. cbn. auto.
  - cbn [app lookup jget] in H. destruct (String.eqb k a) eqn:E.
    + apply String.eqb_eq in E as ->. destruct j as [|l|e].
      * destruct r; discriminate.
      * destruct r; discriminate.
      * right. left. exists e, r. split; [reflexivity|]. split; [reflexivity|]. exists x. auto.
    + right. right. exists x. cbn. auto.
Qed.

Lemma find_ok h name :
  (forall l d f, holds h l d f -> clean_dict d -> forall n, length f <= n -> exists r, find_key n h l name = Some r /\ find_spec d name r) /\
  (forall st d f, holds_entries h st d f -> clean_dict d -> forall n, length f <= n -> exists r, find_each n h name st = Some r /\ find_spec d name r) /\
  (forall v j f, holds_value h v j f -> clean_value j -> forall n, length f <= n ->
     match v with PServer c => exists e r, j = JDict e /\ clean_dict e /\ find_key n h c name = Some r /\ find_spec e name r | _ => is_dict j = false end) /\
  (forall cs ds f, holds_list h cs ds f -> True).
Proof.
  apply holds_mut with
   (P := fun l d f _ => clean_dict d -> forall n, length f <= n -> exists r, find_key n h l name = Some r /\ find_spec d name r)
   (P0 := fun st d f _ => clean_dict d -> forall n, length f <= n -> exists r, find_each n h name st = Some r /\ find_spec d name r)
   (P1 := fun v j f _ => clean_value j -> forall n, length f <= n ->
     match v with PServer c => exists e r, j = JDict e /\ clean_dict e /\ find_key n h c name = Some r /\ find_spec e name r | _ => is_dict j = false end)
   (P2 := fun cs ds f _ => True); try trivial.
  - intros l st d f E _ IH C n L. destruct n as [|n]; [cbn in L; lia|]. destruct (IH C n) as (r & A1 & A2); [cbn in L; lia|].
    exists r. split; [|assumption]. cbn [find_key]. rewrite E. exact A1.
  - intros _ n _. exists None. split; [reflexivity|]. intros ks (j & H & _). destruct ks; discriminate.
  - intros k v j f st d fs _ IH1 _ IH2 C n L. inversion C as [|? ? ? C1 C2 C3 C4]; subst. rewrite app_length in L.
    specialize (IH1 C3 n ltac:(lia)). destruct (IH2 C4 n ltac:(lia)) as (r2 & B1 & B2).
    assert (REST : (forall ks, named ((k, j) :: d) name ks -> named d name ks) -> find_spec ((k, j) :: d) name r2).
    { intros Q. destruct r2 as [s|]; cbn in *.
      - destruct B2 as (ks & K1 & K2). exists ks. split; [assumption|]. now apply named_head_other.
      - intros ks K. exact (B2 ks (Q ks K)). }
    assert (VAL : is_dict j = false -> exists r, (if String.eqb name k then Some (Some name) else find_each n h name st) = Some r /\ find_spec ((k, j) :: d) name r).
    { intros V. destruct (String.eqb name k) eqn:E.
      - apply String.eqb_eq in E as <-. exists (Some name). split; [reflexivity|]. exists []. split; [reflexivity|].
        exists j. cbn. rewrite String.eqb_refl. auto.
      - exists r2. split; [assumption|]. apply REST. intros ks K.
        apply named_cons in K as [(x & -> & -> & _)|[(e & r & -> & _)|K]]; [now rewrite String.eqb_refl in E|discriminate|assumption]. }
    destruct v as [jv|c|cs]; cbn [find_each]; [now apply VAL| |now apply VAL].
    destruct IH1 as (e & r1 & -> & Ce & F1 & F2). rewrite F1. destruct r1 as [s|].
    + cbn in F2. destruct F2 as (ks & K1 & K2). pose proof (named_clean _ _ _ Ce K2) as Cn.
      destruct (String.eqb s "") eqn:Es.
      { exfalso. apply String.eqb_eq in Es. rewrite Es in K1. destruct (ks ++ [name]) as [|a b] eqn:Eq; [now destruct ks|].
        apply Forall_inv in Cn. symmetry in K1. revert K1. now apply join_nonempty. }
      eexists. split; [reflexivity|]. exists (k :: ks). split.
      { rewrite K1. cbn [app]. rewrite (join_cons k) by apply snoc_ne. reflexivity. }
      destruct K2 as (x & K2 & K3). exists x. split; [|assumption]. cbn [app lookup jget]. rewrite String.eqb_refl. exact K2.
    + exists r2. split; [assumption|]. apply REST. intros ks K.
      apply named_cons in K as [(x & _ & _ & <- & Q)|[(e' & r & Q & -> & K)|K]]; [discriminate| |assumption].
      injection Q as <-. destruct (F2 r K).
  - intros j P C n L. now destruct j.
  - intros c d f H IH C n L. inversion C as [? P|? D|]; subst; [discriminate|]. destruct (IH D n L) as (r & A1 & A2). exists d, r. auto.
Qed.

(* ---- HasEqualParamsAs ---- *)
Lemma plain_groups d ds : plain_value (JList (map JDict (d :: ds))) = false.
Proof. cbn [plain_value map]. change (JDict d :: map JDict ds) with (map JDict (d :: ds)). now rewrite is_dict_map. Qed.
Lemma jget_none d k : jget d k = None <-> ~ In k (map fst d).
Proof.
  induction d as [|[a w] d IH]; cbn; [tauto|]. destruct (String.eqb a k) eqn:E.
  - apply String.eqb_eq in E as ->. split; [discriminate|tauto].
  - apply String.eqb_neq in E. rewrite IH. tauto.
Qed.
Section Diff.
Variable py_eq : json -> json -> bool.

Definition diff_entry (n : nat) (h : heap) (l u : loc) (k : string) (v : pv) : option heap :=
  match entry h l k with
  | None => set_item h u k v
  | Some (PServer c) =>
      match v with
      | PServer c2 =>
          let (h1, u1) := alloc h in
          match has_diff py_eq n h1 c c2 u1 with
          | Some (h2, true) => set_item h2 u k (PServer u1)
          | Some (h2, false) => Some h2
          | None => None
          end
      | _ => set_item h u k v
      end
  | Some w => if pv_eq py_eq w v then Some h else set_item h u k v
  end.
Definition diff_each (n : nat) (l u : loc) := fix each (h : heap) (es : store) : option heap :=
  match es with
  | [] => Some h
  | (k, v) :: r => match diff_entry n h l u k v with Some h' => each h' r | None => None end
  end.
Lemma has_diff_eq n (h : heap) l l2 u : has_diff py_eq (S n) h l l2 u =
  match nth_error h l2 with
  | None => None
  | Some st2 => match diff_each n l u h st2 with
                | Some h' => match nth_error h' u with Some [] => Some (h', false) | Some _ => Some (h', true) | None => None end
                | None => None
                end
  end.
Proof. reflexivity. Qed.

Lemma dset_ne {V} (d : dct V) k v : dset d k v <> [].
Proof. destruct d as [|[a w] d]; cbn; [discriminate|]. destruct (String.eqb a k); discriminate. Qed.

Lemma holds_dget h : forall st d f, holds_entries h st d f -> forall k,
  match dget st k, jget d k with
  | Some v, Some j => exists f', holds_value h v j f' /\ incl f' f
  | None, None => True
  | _, _ => False
  end.
Proof.
  induction 1 as [|k v j f st d fs Hv _ IH]; intros k'; cbn; [exact I|].
  destruct (String.eqb k k').
  - exists f. split; [assumption|]. intros x X. apply in_or_app. auto.
  - specialize (IH k'). destruct (dget st k'), (jget d k'); try exact IH. destruct IH as (f' & A & B). exists f'. split; [assumption|].
    intros x X. apply in_or_app. auto.
Qed.

Lemma set_item_clean (h : heap) u k v : clean k -> stored_as_is v -> set_item h u k v = Some (upd h u k v).
Proof. intros C Sv. unfold set_item. rewrite Sv. unfold set_hier. now rewrite rsplit_single. Qed.
Lemma held_as_is h v j f : holds_value h v j f -> stored_as_is v.
Proof. intros H. destruct H; [now apply plain_as_is| |]; intros h'; reflexivity. Qed.

(** What one comparison does to the heap: only [u] and new servers change. *)
Definition only_u (h h' : heap) (u : loc) : Prop :=
  length h <= length h' /\ (forall x, x < length h -> x <> u -> nth_error h' x = nth_error h x).
Lemma only_u_trans h1 h2 h3 u : only_u h1 h2 u -> only_u h2 h3 u -> only_u h1 h3 u.
Proof. intros (A1 & A2) (B1 & B2). split; [lia|]. intros x L N. rewrite B2 by lia. now apply A2. Qed.

Definition below (n : nat) (f : list loc) : Prop := forall x, In x f -> x < n.

Definition diff_goal (d1 d2 : list (string * json)) (h' : heap) (b : bool) : Prop :=
  (b = true <-> differs py_eq d1 d2).

Lemma differs_cons d1 k y d2 : ~ In k (map fst d2) ->
  (differs py_eq d1 ((k, y) :: d2) <->
   (match jget d1 k with None => True | Some x => differs_value py_eq x y end) \/ differs py_eq d1 d2).
Proof.
  intros N. split.
  - intros H. inversion H as [? ? k' y' A B|? ? k' x' y' A B C]; subst.
    + cbn in A. destruct (String.eqb k k') eqn:E.
      * apply String.eqb_eq in E as ->. rewrite B. auto.
      * right. eapply df_missing; eauto.
    + cbn in B. destruct (String.eqb k k') eqn:E.
      * apply String.eqb_eq in E as ->. injection B as ->. rewrite A. auto.
      * right. eapply df_at; eauto.
  - intros [H|H].
    + destruct (jget d1 k) as [x|] eqn:E.
      * eapply (df_at _ _ _ k x y); auto. cbn. now rewrite String.eqb_refl.
      * eapply (df_missing _ _ _ k y); auto. cbn. now rewrite String.eqb_refl.
    + assert (K : forall k' y', jget d2 k' = Some y' -> jget ((k, y) :: d2) k' = Some y').
      { intros k' y' Q. cbn. destruct (String.eqb k k') eqn:E; [|assumption]. apply String.eqb_eq in E as <-. apply jget_in in Q. contradiction. }
      inversion H as [? ? k' y' A B|? ? k' x' y' A B C]; subst.
      * eapply df_missing; eauto.
      * eapply df_at; eauto.
Qed.

Lemma diff_ok h :
  (forall l2 d2 f2, holds h l2 d2 f2 -> clean_dict d2 -> forall h' l u d1 f1 n, agree h h' f2 -> holds h' l d1 f1 ->
     below (length h') f1 -> below (length h') f2 -> ~ In u f1 -> ~ In u f2 -> (forall x, In x f1 -> ~ In x f2) ->
     nth_error h' u = Some [] -> length f2 <= n ->
     exists h2 b, has_diff py_eq n h' l l2 u = Some (h2, b) /\ only_u h' h2 u /\ (b = true <-> differs py_eq d1 d2)) /\
  (forall st2 d2 f2, holds_entries h st2 d2 f2 -> clean_dict d2 -> forall h' l u d1 f1 n stu, agree h h' f2 -> holds h' l d1 f1 ->
     below (length h') f1 -> below (length h') f2 -> ~ In u f1 -> ~ In u f2 -> (forall x, In x f1 -> ~ In x f2) ->
     nth_error h' u = Some stu -> length f2 <= n ->
     exists h2 stu', diff_each n l u h' st2 = Some h2 /\ only_u h' h2 u /\ nth_error h2 u = Some stu' /\
       (stu' <> [] <-> stu <> [] \/ differs py_eq d1 d2)) /\
  (forall v y f2, holds_value h v y f2 -> clean_value y -> forall k h' l u d1 f1 n stu, clean k -> agree h h' f2 -> holds h' l d1 f1 ->
     below (length h') f1 -> below (length h') f2 -> ~ In u f1 -> ~ In u f2 -> (forall x, In x f1 -> ~ In x f2) ->
     nth_error h' u = Some stu -> length f2 <= n ->
     exists h2 stu', diff_entry n h' l u k v = Some h2 /\ only_u h' h2 u /\ nth_error h2 u = Some stu' /\
       (stu' <> [] <-> stu <> [] \/ match jget d1 k with None => True | Some x => differs_value py_eq x y end)) /\
  (forall cs ds f, holds_list h cs ds f -> True).
Proof.
  apply holds_mut with
   (P := fun l2 d2 f2 _ => clean_dict d2 -> forall h' l u d1 f1 n, agree h h' f2 -> holds h' l d1 f1 ->
     below (length h') f1 -> below (length h') f2 -> ~ In u f1 -> ~ In u f2 -> (forall x, In x f1 -> ~ In x f2) ->
     nth_error h' u = Some [] -> length f2 <= n ->
     exists h2 b, has_diff py_eq n h' l l2 u = Some (h2, b) /\ only_u h' h2 u /\ (b = true <-> differs py_eq d1 d2))
   (P0 := fun st2 d2 f2 _ => clean_dict d2 -> forall h' l u d1 f1 n stu, agree h h' f2 -> holds h' l d1 f1 ->
     below (length h') f1 -> below (length h') f2 -> ~ In u f1 -> ~ In u f2 -> (forall x, In x f1 -> ~ In x f2) ->
     nth_error h' u = Some stu -> length f2 <= n ->
     exists h2 stu', diff_each n l u h' st2 = Some h2 /\ only_u h' h2 u /\ nth_error h2 u = Some stu' /\
       (stu' <> [] <-> stu <> [] \/ differs py_eq d1 d2))
   (P1 := fun v y f2 _ => clean_value y -> forall k h' l u d1 f1 n stu, clean k -> agree h h' f2 -> holds h' l d1 f1 ->
     below (length h') f1 -> below (length h') f2 -> ~ In u f1 -> ~ In u f2 -> (forall x, In x f1 -> ~ In x f2) ->
     nth_error h' u = Some stu -> length f2 <= n ->
     exists h2 stu', diff_entry n h' l u k v = Some h2 /\ only_u h' h2 u /\ nth_error h2 u = Some stu' /\
       (stu' <> [] <-> stu <> [] \/ match jget d1 k with None => True | Some x => differs_value py_eq x y end))
   (P2 := fun cs ds f _ => True); try trivial.
  - intros l2 st2 d2 f2 E _ IH C h' l u d1 f1 n A H B1 B2 U1 U2 D EU L. destruct n as [|n]; [cbn in L; lia|].
    rewrite has_diff_eq. rewrite (A l2 (or_introl eq_refl)), E.
    destruct (IH C h' l u d1 f1 n []) as (h2 & stu' & A1 & A2 & A3 & A4); auto.
    + intros x I. apply A. now right.
    + intros x I. apply B2. now right.
    + intros I. apply U2. now right.
    + intros x I J. apply (D x I). now right.
    + cbn in L. lia.
    + rewrite A1, A3. destruct stu' as [|e stu'].
      * exists h2, false. split; [reflexivity|]. split; [assumption|]. split; [discriminate|]. intros Q. exfalso. apply (proj2 A4); auto.
      * exists h2, true. split; [reflexivity|]. split; [assumption|]. split; [|auto]. intros _. destruct (proj1 A4 ltac:(discriminate)) as [Q|Q]; [congruence|assumption].
  - intros _ h' l u d1 f1 n stu _ _ _ _ _ _ _ EU _. exists h', stu. split; [reflexivity|]. split; [split; [lia|auto]|]. split; [assumption|].
    split; [auto|]. intros [Q|Q]; [assumption|]. inversion Q; discriminate.
  - intros k v y f st2 d2 fs Hv IHv Hs IHs C h' l u d1 f1 n stu A H B1 B2 U1 U2 D EU L.
    inversion C as [|? ? ? C1 C2 C3 C4]; subst. rewrite app_length in L. apply agree_app in A as [Aa Ab].
    assert (IN1 : forall x, In x f -> In x (f ++ fs)) by (intros; apply in_or_app; auto).
    assert (IN2 : forall x, In x fs -> In x (f ++ fs)) by (intros; apply in_or_app; auto).
    destruct (IHv C3 k h' l u d1 f1 n stu) as (h1 & stu1 & E1 & O1 & N1 & Q1); auto; try lia.
    { intros x I. apply B2; auto. } { intros x I J. apply (D x I). auto. }
    destruct O1 as (O1 & O2).
    assert (Kn : forall f0, below (length h') f0 -> ~ In u f0 -> agree h' h1 f0).
    { intros f0 Bf Uf x I. apply O2; [now apply Bf|]. congruence. }
    destruct (IHs C4 h1 l u d1 f1 n stu1) as (h2 & stu2 & E2 & O3 & N2 & Q2).
    + intros x I. rewrite (Kn fs); auto. intros z J. auto.
    + eapply (proj1 (holds_frame h')); [exact H|]. apply Kn; auto.
    + intros x I. specialize (B1 x I). lia.
    + intros x I. specialize (B2 x (IN2 x I)). lia.
    + assumption.
    + auto.
    + intros x I J. apply (D x I). auto.
    + assumption.
    + lia.
    + exists h2, stu2. cbn [diff_each]. rewrite E1. split; [exact E2|]. split; [eapply only_u_trans; [split; eassumption|exact O3]|].
      split; [assumption|]. rewrite Q2, Q1. rewrite (differs_cons d1 k y d2 C2). tauto.
  - intros y P C k h' l u d1 f1 n stu Ck A H B1 B2 U1 U2 D EU L.
    inversion H as [? st1 ? g1 E1 HE]; subst. pose proof (holds_dget _ _ _ _ HE k) as G.
    assert (UL : u < length h') by now apply nth_lt in EU.
    assert (SET : exists h2 stu', set_item h' u k (PVal y) = Some h2 /\ only_u h' h2 u /\ nth_error h2 u = Some stu' /\ stu' <> []).
    { rewrite set_item_clean by (auto; now apply plain_as_is). exists (upd h' u k (PVal y)), (dset stu k (PVal y)). split; [reflexivity|].
      split; [split; [rewrite upd_length; lia|intros; now apply upd_nth_other]|]. split; [|apply dset_ne].
      unfold upd. rewrite EU. now apply set_nth_same. }
    destruct SET as (h2 & stu' & S1 & S2 & S3 & S4).
    assert (YD : is_dict y = false) by now destruct y.
    unfold diff_entry, entry. rewrite E1. destruct (dget st1 k) as [w|], (jget d1 k) as [x|]; try contradiction.
    + destruct G as (g & G & _). destruct w as [xj|c|cs].
      * inversion G as [? PX| |]; subst. cbn [pv_eq]. destruct (py_eq x y) eqn:Q.
        -- exists h', stu. split; [reflexivity|]. split; [split; [lia|auto]|]. split; [assumption|]. split; [auto|]. intros [?|V]; [assumption|].
           inversion V; subst; try congruence; try discriminate; destruct x; try discriminate; cbn in *; intuition congruence.
        -- exists h2, stu'. split; [assumption|]. split; [assumption|]. split; [assumption|]. split; [|auto]. intros _. right. now apply dv_plain.
      * inversion G; subst. exists h2, stu'. split; [assumption|]. split; [assumption|]. split; [assumption|]. split; [|auto]. intros _. right.
        apply dv_kind. cbn. congruence.
      * exists h2, stu'. split; [assumption|]. split; [assumption|]. split; [assumption|]. split; [|auto]. intros _. right.
        inversion G; subst. apply dv_lists; [reflexivity|assumption|left; apply plain_groups].
    + exists h2, stu'. split; [assumption|]. split; [assumption|]. split; [assumption|]. split; auto.
  - intros c2 e2 f Hc IH C k h' l u d1 f1 n stu Ck A H B1 B2 U1 U2 D EU L.
    inversion C as [? P|? Ce|]; subst; [discriminate|].
    inversion H as [? st1 ? g1 E1 HE]; subst. pose proof (holds_dget _ _ _ _ HE k) as G.
    assert (UL : u < length h') by now apply nth_lt in EU.
    assert (SET : forall h0 v, u < length h0 -> stored_as_is v -> forall st0, nth_error h0 u = Some st0 -> exists h2 stu', set_item h0 u k v = Some h2 /\ only_u h0 h2 u /\ nth_error h2 u = Some stu' /\ stu' <> []).
    { intros h0 v UL0 Sv st0 E0. rewrite set_item_clean by auto. exists (upd h0 u k v), (dset st0 k v). split; [reflexivity|].
      split; [split; [rewrite upd_length; lia|intros; now apply upd_nth_other]|]. split; [|apply dset_ne].
      unfold upd. rewrite E0. now apply set_nth_same. }
    assert (Sc : stored_as_is (PServer c2)) by (intros ?; reflexivity).
    destruct (SET h' (PServer c2) UL Sc stu EU) as (h2 & stu' & S1 & S2 & S3 & S4).
    unfold diff_entry, entry. rewrite E1. destruct (dget st1 k) as [w|], (jget d1 k) as [x|]; try contradiction.
    + destruct G as (g & G & Gi). destruct w as [xj|c|cs].
      * inversion G as [? PX| |]; subst. cbn [pv_eq]. exists h2, stu'. split; [assumption|]. split; [assumption|]. split; [assumption|]. split; [|auto].
        intros _. right. apply dv_kind. destruct x; cbn in *; congruence.
      * inversion G as [|? e1 ? Hc1|]; subst. unfold alloc.
        assert (AG : forall f0, below (length h') f0 -> agree h' (h' ++ [[]]) f0) by (intros f0 Bf x I; apply nth_error_app1; now apply Bf).
        assert (Bg : below (length h') g) by (intros x I; apply B1; right; auto).
        destruct (IH Ce (h' ++ [[]]) c (length h') e1 g n) as (h3 & b & R1 & (R2 & R3) & R4).
        -- intros x I. rewrite (AG f); auto.
        -- eapply (proj1 (holds_frame h')); [exact Hc1|]. now apply AG.
        -- intros x I. rewrite app_length. specialize (Bg x I). cbn. lia.
        -- intros x I. rewrite app_length. specialize (B2 x I). cbn. lia.
        -- intros I. specialize (Bg _ I). lia.
        -- intros I. specialize (B2 _ I). lia.
        -- intros x I J. apply (D x); [right; auto|assumption].
        -- apply nth_app_new.
        -- lia.
        -- rewrite R1. rewrite app_length in R2. cbn in R2.
           assert (K3 : forall x, x < length h' -> nth_error h3 x = nth_error h' x).
           { intros x Lx. rewrite R3; [|rewrite app_length; cbn; lia|lia]. now apply nth_error_app1. }
           destruct b.
           ++ destruct (SET h3 (PServer (length h')) ltac:(lia) ltac:(intros ?; reflexivity) stu ltac:(rewrite K3 by assumption; exact EU)) as (h4 & stu4 & T1 & (T2 & T2') & T3 & T4).
              exists h4, stu4. split; [assumption|]. split; [split; [lia|]|].
              { intros x Lx Nx. rewrite T2' by lia. now apply K3. }
              split; [assumption|]. split; [|auto]. intros _. right. apply dv_groups. now apply R4.
           ++ exists h3, stu. split; [reflexivity|]. split; [split; [lia|]|].
              { intros x Lx Nx. now apply K3. }
              split; [now rewrite K3|]. split; [auto|]. intros [?|V]; [assumption|]. exfalso.
              inversion V; subst; try discriminate; cbn in *; try congruence. assert (false = true) by now apply R4. discriminate.
      * inversion G; subst. cbn [pv_eq]. exists h2, stu'. split; [assumption|]. split; [assumption|]. split; [assumption|]. split; [|auto].
        intros _. right. apply dv_kind. cbn. congruence.
    + exists h2, stu'. split; [assumption|]. split; [assumption|]. split; [assumption|]. split; auto.
  - intros c2 cs2 e ds f Hl _ C k h' l u d1 f1 n stu Ck A H B1 B2 U1 U2 D EU L.
    inversion H as [? st1 ? g1 E1 HE]; subst. pose proof (holds_dget _ _ _ _ HE k) as G.
    assert (UL : u < length h') by now apply nth_lt in EU.
    assert (SET : exists h2 stu', set_item h' u k (PServers (c2 :: cs2)) = Some h2 /\ only_u h' h2 u /\ nth_error h2 u = Some stu' /\ stu' <> []).
    { rewrite set_item_clean by (auto; intros ?; reflexivity). exists (upd h' u k (PServers (c2 :: cs2))), (dset stu k (PServers (c2 :: cs2))). split; [reflexivity|].
      split; [split; [rewrite upd_length; lia|intros; now apply upd_nth_other]|]. split; [|apply dset_ne].
      unfold upd. rewrite EU. now apply set_nth_same. }
    destruct SET as (h2 & stu' & S1 & S2 & S3 & S4).
    unfold diff_entry, entry. rewrite E1. destruct (dget st1 k) as [w|], (jget d1 k) as [x|]; try contradiction.
    + destruct G as (g & G & Gi). exists h2, stu'. destruct w as [xj|c|cs].
      * inversion G as [? PX| |]; subst. cbn [pv_eq]. split; [assumption|]. split; [assumption|]. split; [assumption|]. split; [|auto].
        intros _. right. apply dv_lists; [now destruct x|reflexivity|right; apply plain_groups].
      * inversion G; subst. split; [assumption|]. split; [assumption|]. split; [assumption|]. split; [|auto].
        intros _. right. apply dv_kind. cbn. congruence.
      * inversion G as [| |c cs0 e0 es0 ? HL]; subst. cbn [pv_eq]. destruct (list_eq_dec Nat.eq_dec (c :: cs0) (c2 :: cs2)) as [Q|Q].
        -- exfalso. injection Q as -> ->.
           assert (I1 : In c2 g) by (inversion HL as [|? ? ? ? ? ? HH ?]; subst; inversion HH; subst; now left).
           assert (I2 : In c2 f) by (inversion Hl as [|? ? ? ? ? ? HH ?]; subst; inversion HH; subst; now left).
           apply (D c2); [right; auto|assumption].
        -- split; [assumption|]. split; [assumption|]. split; [assumption|]. split; [|auto]. intros _. right. apply dv_lists; [reflexivity|reflexivity|right; apply plain_groups].
    + exists h2, stu'. split; [assumption|]. split; [assumption|]. split; [assumption|]. split; auto.
Qed.
End Diff.
