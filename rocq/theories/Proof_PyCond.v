(** The list of parameters handed to C++. *)

From Coq Require Import String Ascii List Arith Lia Bool QArith ZArith.
Import ListNotations.
From Verif Require Import Model_BenchRun Proof_BenchRun Model_Params Model_PyParams Spec_PyParams Proof_PyAccess Proof_PyGet Proof_PyConv.
Local Open Scope string_scope.
Local Open Scope nat_scope.
Local Open Scope list_scope.

Lemma floats_iff l : forallb is_float l = true <-> exists qs, l = map (fun q => JAtom (AFloat q)) qs.
Proof.
  split.
  - induction l as [|j l IH]; intros H; [now exists []|]. cbn in H. apply andb_true_iff in H as [H1 H2].
    destruct (IH H2) as [qs ->]. destruct j as [[| |q| |]| |]; try discriminate. now exists (q :: qs).
  - intros [qs ->]. induction qs; cbn; auto.
Qed.
Lemma sendable_iff j : transferable j = true <-> sendable j.
Proof.
  split.
  - destruct j as [[b|z|q|s|]|l|d]; cbn; intros H; try discriminate; try constructor.
    apply orb_true_iff in H as [H|H].
    + apply floats_iff in H as [qs ->]. constructor.
    + assert (G : exists rs, l = map (fun r => JList (map (fun q => JAtom (AFloat q)) r)) rs).
      { induction l as [|j l IH]; [now exists []|]. cbn in H. apply andb_true_iff in H as [H1 H2].
        destruct (IH H2) as [rs ->]. destruct j as [|l'|]; try discriminate. cbn in H1. apply floats_iff in H1 as [qs ->].
        now exists (qs :: rs). }
      destruct G as [rs ->]. constructor.
  - intros H. destruct H; cbn; try reflexivity.
    + assert (Q : forallb is_float (map (fun q => JAtom (AFloat q)) l) = true) by (apply floats_iff; eauto). now rewrite Q.
    + apply orb_true_iff. right. induction l as [|r l IH]; cbn; [reflexivity|]. rewrite IH, andb_true_r. apply floats_iff. eauto.
Qed.

Lemma jget_in d k j : jget d k = Some j -> In k (map fst d).
Proof.
  induction d as [|[a w] d IH]; cbn; [discriminate|]. destruct (String.eqb a k) eqn:E; [apply String.eqb_eq in E; auto|]. auto.
Qed.
Lemma lookup_head d k j d' ks x : lookup (JDict ((k, j) :: d)) ks = Some x ->
  d' = d -> ks = [] \/ exists r, ks = k :: r /\ lookup j r = Some x \/ exists k' r, ks = k' :: r /\ k' <> k /\ lookup (JDict d) ks = Some x.
Proof.
  intros H _. destruct ks as [|a r]; [auto|]. right. exists r. cbn in H. destruct (String.eqb k a) eqn:E.
  - apply String.eqb_eq in E as ->. auto.
  - right. exists a, r. split; [reflexivity|]. split; [|exact H]. apply String.eqb_neq in E. congruence.
Qed.

Lemma lookup_clean : forall ks j x, clean_value j -> lookup j ks = Some x -> cleans ks.
Proof.
  assert (G : forall d k j, clean_dict d -> jget d k = Some j -> clean k /\ clean_value j).
  { intros d k j C. induction C as [|a w d C1 C2 C3 C4 IH]; cbn; [discriminate|].
    destruct (String.eqb a k) eqn:E; [|auto]. apply String.eqb_eq in E as ->. intros Q. injection Q as <-. auto. }
  induction ks as [|k ks IH]; intros j x C H; [constructor|]. cbn in H. destruct j as [| |d]; try discriminate.
  destruct (jget d k) as [w|] eqn:E; [|discriminate]. inversion C as [? P|? D|]; subst; [discriminate|].
  destruct (G d k w D E) as [G1 G2]. constructor; [exact G1|exact (IH w x G2 H)].
Qed.
Lemma join_inj ks ks' : ks <> [] -> ks' <> [] -> cleans ks -> cleans ks' -> join ks = join ks' -> ks = ks'.
Proof. intros N N' C C' E. rewrite <- (hierarchy_join ks N C), <- (hierarchy_join ks' N' C'). now rewrite E. Qed.
Lemma join_cons k ks : ks <> [] -> join (k :: ks) = (k ++ "::" ++ join ks)%string.
Proof. destruct ks; [congruence|reflexivity]. Qed.

(** Which entries: those at a path of [j] below the key [k]. *)
Definition lists_below (r : list (string * json)) (k : string) (j : json) : Prop :=
  NoDup (map fst r) /\ forall n x, In (n, x) r <-> exists ks, n = join (k :: ks) /\ lookup j ks = Some x /\ transferable x = true.
Definition lists_of (r : list (string * json)) (d : list (string * json)) : Prop :=
  NoDup (map fst r) /\ forall n x, In (n, x) r <-> exists ks, n = join ks /\ lookup (JDict d) ks = Some x /\ transferable x = true.

Definition cond_entry (n : nat) (h : heap) (k : string) (v : pv) : option (list (string * json)) :=
  match v with
  | PVal j => Some (if transferable j then [(k, j)] else [])
  | PServer c => match condensed n h c with
                 | Some d => Some (map (fun x => ((k ++ "::" ++ fst x)%string, snd x)) (filter (fun x => transferable (snd x)) d))
                 | None => None
                 end
  | PServers _ => Some []
  end.

Lemma filter_all {A} (p : A -> bool) l : (forall x, In x l -> p x = true) -> filter p l = l.
Proof.
  induction l as [|a l IH]; intros H; cbn; [reflexivity|]. rewrite (H a (or_introl eq_refl)). f_equal. apply IH. intros x I. apply H. now right.
Qed.
Lemma str_app_inj k a b : (k ++ a)%string = (k ++ b)%string -> a = b.
Proof. induction k; cbn; [auto|]. intros E. injection E. auto. Qed.

Lemma condensed_ok h :
  (forall l d f, holds h l d f -> clean_dict d -> forall n, length f <= n -> exists r, condensed n h l = Some r /\ lists_of r d) /\
  (forall st d f, holds_entries h st d f -> clean_dict d -> forall n, length f <= n ->
     exists r, omap (fun kv : string * pv => cond_entry n h (fst kv) (snd kv)) st = Some r /\ lists_of (concat r) d) /\
  (forall v j f, holds_value h v j f -> clean_value j -> forall n, length f <= n -> forall k, clean k ->
     exists r, cond_entry n h k v = Some r /\ lists_below r k j) /\
  (forall cs ds f, holds_list h cs ds f -> True).
Proof.
  apply holds_mut with
   (P := fun l d f _ => clean_dict d -> forall n, length f <= n -> exists r, condensed n h l = Some r /\ lists_of r d)
   (P0 := fun st d f _ => clean_dict d -> forall n, length f <= n ->
     exists r, omap (fun kv : string * pv => cond_entry n h (fst kv) (snd kv)) st = Some r /\ lists_of (concat r) d)
   (P1 := fun v j f _ => clean_value j -> forall n, length f <= n -> forall k, clean k ->
     exists r, cond_entry n h k v = Some r /\ lists_below r k j)
   (P2 := fun cs ds f _ => True); try trivial.
  - intros l st d f E _ IH C n L. destruct n as [|n]; [cbn in L; lia|]. destruct (IH C n) as (r & A1 & A2); [cbn in L; lia|].
    exists (concat r). split; [|assumption]. cbn [condensed]. rewrite E. unfold cond_entry in A1. rewrite A1. reflexivity.
  - intros _ n _. exists []. split; [reflexivity|]. split; [constructor|]. intros n' x. cbn. split; [intros []|].
    intros (ks & _ & H & T). destruct ks as [|k r]; [injection H as <-; discriminate|discriminate].
  - intros k v j f st d fs _ IH1 _ IH2 C n L. inversion C as [|? ? ? C1 C2 C3 C4]; subst. rewrite app_length in L.
    destruct (IH1 C3 n ltac:(lia) k C1) as (r1 & A1 & A2 & A3). destruct (IH2 C4 n ltac:(lia)) as (r2 & B1 & B2 & B3).
    exists (r1 :: r2). cbn [omap fst snd]. rewrite A1, B1. split; [reflexivity|]. cbn [concat].
    assert (NE : forall ks x, lookup (JDict d) ks = Some x -> transferable x = true -> exists a r, ks = a :: r /\ a <> k /\ cleans ks).
    { intros ks x H T. destruct ks as [|a r]; [injection H as <-; discriminate|]. exists a, r. split; [reflexivity|].
      split; [|eapply lookup_clean; [apply cv_dict; exact C4|exact H]].
      intros ->. cbn in H. destruct (jget d k) eqn:G; [|discriminate]. apply jget_in in G. contradiction. }
    split.
    + rewrite map_app. apply nodup_app; auto. intros nm I J. apply in_map_iff in I as ((n1 & x1) & <- & I). apply in_map_iff in J as ((n2 & x2) & E2 & J).
      cbn in E2. subst n2. apply A3 in I as (ks & K1 & K2 & K3). apply B3 in J as (ks' & K1' & K2' & K3').
      destruct (NE _ _ K2' K3') as (a & r & -> & Na & Cs).
      assert (Q : k :: ks = a :: r).
      { apply join_inj; try discriminate; auto; [|congruence]. constructor; [assumption|]. eapply lookup_clean; eauto. }
      congruence.
    + intros nm x. rewrite in_app_iff, A3, B3. split.
      * intros [(ks & K1 & K2 & K3)|(ks & K1 & K2 & K3)].
        -- exists (k :: ks). split; [assumption|]. split; [|assumption]. cbn. now rewrite String.eqb_refl.
        -- exists ks. split; [assumption|]. split; [|assumption]. destruct (NE _ _ K2 K3) as (a & r & -> & Na & _).
           cbn in *. destruct (String.eqb k a) eqn:E; [apply String.eqb_eq in E; congruence|assumption].
      * intros (ks & K1 & K2 & K3). destruct ks as [|a r]; [injection K2 as <-; discriminate|]. cbn in K2.
        destruct (String.eqb k a) eqn:E.
        -- apply String.eqb_eq in E as <-. left. exists r. auto.
        -- right. exists (a :: r). auto.
  - intros j P C n _ k Ck. exists (if transferable j then [(k, j)] else []). split; [reflexivity|].
    assert (NL : forall ks x, lookup j ks = Some x -> ks = [] /\ x = j).
    { intros [|a r] x H; cbn in H; [split; congruence|]. destruct j; discriminate. }
    destruct (transferable j) eqn:T; split; cbn.
    + constructor; [intros []|constructor].
    + intros nm x. split; [intros [Q|[]]; injection Q as <- <-; exists []; auto|].
      intros (ks & K1 & K2 & K3). apply NL in K2 as [-> ->]. left. now rewrite K1.
    + constructor.
    + intros nm x. split; [intros []|]. intros (ks & K1 & K2 & K3). apply NL in K2 as [-> ->]. congruence.
  - intros c d f _ IH C n L k Ck. inversion C as [? P|? D|]; subst; [discriminate|]. destruct (IH D n L) as (r & A1 & A2 & A3).
    cbn [cond_entry]. rewrite A1. eexists. split; [reflexivity|]. rewrite filter_all.
    2: { intros [nm x] I. apply A3 in I as (_ & _ & _ & T). exact T. }
    split.
    + rewrite map_map. cbn [fst]. rewrite <- (map_map fst (fun s => (k ++ "::" ++ s)%string)).
      apply FinFun.Injective_map_NoDup; [|assumption]. intros a b Q. apply str_app_inj in Q. cbn in Q. injection Q. auto.
    + intros nm x. rewrite in_map_iff. split.
      * intros ((nm' & x') & Q & I). cbn in Q. apply A3 in I as (ks & K1 & K2 & K3). exists ks.
        assert (Ex : x' = x) by congruence. subst x'. split; [|auto]. destruct ks as [|a ks]; [injection K2 as <-; discriminate|].
        rewrite (join_cons k) by discriminate. rewrite <- K1. injection Q as <-. reflexivity.
      * intros (ks & K1 & K2 & K3). destruct ks as [|a ks]; [injection K2 as <-; discriminate|].
        exists (join (a :: ks), x). split; [rewrite K1; rewrite (join_cons k) by discriminate; reflexivity|]. apply A3. eauto.
  - intros c cs d ds f _ _ C n _ k _. exists []. split; [reflexivity|]. split; [constructor|]. intros nm x. split; [intros []|].
    intros (ks & _ & H & T). destruct ks; [|discriminate]. cbn in H. injection H as <-. discriminate.
Qed.

(* ---- filled ---- *)
Section FilledInd.
Variable P : json -> Prop.
Hypothesis Ha : forall a, P (JAtom a).
Hypothesis Hl : forall l, forallb is_dict l = false -> P (JList l).
Hypothesis Hd : forall d, d <> [] -> Forall P (map snd d) -> P (JDict d).
Hypothesis Hs : forall ds, Forall P (concat (map (map snd) ds)) -> P (JList (map JDict ds)).
Fixpoint filled_ind2 (j : json) (H : filled j) {struct H} : P j.
Proof.
  destruct H as [a|l Q|d N F|ds F]; [apply Ha|now apply Hl|apply Hd|apply Hs]; auto.
  - revert F. generalize (map snd d). fix go 2. intros l F. destruct F; constructor; [now apply filled_ind2|now apply go].
  - revert F. generalize (concat (map (map snd) ds)). fix go 2. intros l F. destruct F; constructor; [now apply filled_ind2|now apply go].
Qed.
End FilledInd.
Lemma filled_marked j : filled j -> marked j = j.
Proof.
  intros H. induction H using filled_ind2.
  - reflexivity.
  - cbn [marked]. now rewrite H.
  - destruct d as [|[k x] d]; [congruence|]. change (JDict (marked_dict ((k, x) :: d)) = JDict ((k, x) :: d)). f_equal.
    revert H0. generalize ((k, x) :: d). clear. intros l F. induction l as [|[a b] l IH]; [reflexivity|]. inversion F; subst. cbn in *.
    rewrite H1. f_equal. now apply IH.
  - cbn [marked]. rewrite is_dict_map. f_equal. rewrite map_map. apply map_ext_in. intros d I. f_equal.
    rewrite <- (map_id d) at 2. apply map_ext_in. intros [k x] J. cbn. f_equal. rewrite Forall_forall in H. apply H.
    apply in_concat. exists (map snd d). split; [now apply in_map|]. apply in_map_iff. now exists (k, x).
Qed.
Lemma filled_marked_dict d : filled_dict d -> marked_dict d = d.
Proof.
  unfold filled_dict, marked_dict. induction d as [|[k x] d IH]; cbn; [reflexivity|]. intros F. inversion F; subst.
  rewrite filled_marked by assumption. now rewrite IH.
Qed.
