(** AppendParamServer. *)

From Coq Require Import String Ascii List Arith Lia Bool QArith ZArith.
Import ListNotations.
From Verif Require Import Model_BenchRun Proof_BenchRun Model_Params Model_PyParams Spec_PyParams Proof_PyAccess Proof_PyGet Proof_PyConv Proof_PyCond Proof_PyFind.
Local Open Scope string_scope.
Local Open Scope nat_scope.
Local Open Scope list_scope.

(** Entries with what they hold and the servers involved. *)
Record ent := { ek : string; ev : pv; ej : json; ef : list loc }.
Definition st_of (es : list ent) : store := map (fun e => (ek e, ev e)) es.
Definition d_of (es : list ent) : list (string * json) := map (fun e => (ek e, ej e)) es.
Definition f_of (es : list ent) : list loc := concat (map ef es).
Definition he (h : heap) (es : list ent) : Prop := Forall (fun e => holds_value h (ev e) (ej e) (ef e)) es.

Lemma he_holds h es : he h es -> holds_entries h (st_of es) (d_of es) (f_of es).
Proof. induction 1 as [|[k v j f] es H _ IH]; cbn; constructor; auto. Qed.
Lemma holds_he h : forall st d f, holds_entries h st d f -> exists es, he h es /\ st = st_of es /\ d = d_of es /\ f = f_of es.
Proof.
  induction 1 as [|k v j f st d fs Hv _ (es & A & -> & -> & ->)]; [exists []; split; [constructor|auto]|].
  exists ({| ek := k; ev := v; ej := j; ef := f |} :: es). split; [now constructor|]. auto.
Qed.
Lemma st_of_app a b : st_of (a ++ b) = st_of a ++ st_of b. Proof. apply map_app. Qed.
Lemma d_of_app a b : d_of (a ++ b) = d_of a ++ d_of b. Proof. apply map_app. Qed.
Lemma f_of_app a b : f_of (a ++ b) = f_of a ++ f_of b. Proof. unfold f_of. now rewrite map_app, concat_app. Qed.
Lemma keys_st es : map fst (st_of es) = map ek es. Proof. unfold st_of. rewrite map_map. reflexivity. Qed.
Lemma keys_d es : map fst (d_of es) = map ek es. Proof. unfold d_of. rewrite map_map. reflexivity. Qed.

Lemma clean_dict_iff d : clean_dict d <-> NoDup (map fst d) /\ Forall (fun kj => clean (fst kj) /\ clean_value (snd kj)) d.
Proof.
  split.
  - induction 1 as [|k j d C N V _ [IH1 IH2]]; cbn; [split; constructor|]. split; constructor; auto.
  - intros [N F]. induction d as [|[k j] d IH]; [constructor|]. inversion N; subst. inversion F as [|? ? [? ?] ?]; subst. constructor; auto.
Qed.
Lemma dget_st es : forall k, ~ In k (map ek es) -> dget (st_of es) k = None.
Proof. intros k N. apply dget_notin. now rewrite keys_st. Qed.
Lemma dget_mid a e b : ~ In (ek e) (map ek a) -> dget (st_of (a ++ e :: b)) (ek e) = Some (ev e).
Proof.
  induction a as [|x a IH]; intros N; cbn; [now rewrite String.eqb_refl|].
  cbn in N. destruct (String.eqb (ek x) (ek e)) eqn:E; [apply String.eqb_eq in E; tauto|]. apply IH. tauto.
Qed.
Lemma dset_mid a e b v j f : ~ In (ek e) (map ek a) ->
  dset (st_of (a ++ e :: b)) (ek e) v = st_of (a ++ {| ek := ek e; ev := v; ej := j; ef := f |} :: b).
Proof.
  induction a as [|x a IH]; intros N; cbn; [now rewrite String.eqb_refl|].
  cbn in N. destruct (String.eqb (ek x) (ek e)) eqn:E; [apply String.eqb_eq in E; tauto|]. f_equal. apply IH. tauto.
Qed.
Lemma jget_mid a e b : ~ In (ek e) (map ek a) -> jget (d_of (a ++ e :: b)) (ek e) = Some (ej e).
Proof.
  induction a as [|x a IH]; intros N; cbn; [now rewrite String.eqb_refl|].
  cbn in N. destruct (String.eqb (ek x) (ek e)) eqn:E; [apply String.eqb_eq in E; tauto|]. apply IH. tauto.
Qed.
Lemma jget_mid_other a e e' b k : ek e = ek e' -> k <> ek e -> jget (d_of (a ++ e' :: b)) k = jget (d_of (a ++ e :: b)) k.
Proof.
  intros Q N. induction a as [|x a IH]; cbn.
  - destruct (String.eqb (ek e') k) eqn:E; [apply String.eqb_eq in E; congruence|].
    destruct (String.eqb (ek e) k) eqn:E2; [apply String.eqb_eq in E2; congruence|]. reflexivity.
  - destruct (String.eqb (ek x) k); [reflexivity|apply IH].
Qed.
Lemma jget_app_new d k j k' : ~ In k (map fst d) -> jget (d ++ [(k, j)]) k' = if String.eqb k k' then Some j else jget d k'.
Proof.
  intros N. induction d as [|[a w] d IH]; cbn; [reflexivity|]. cbn in N. destruct (String.eqb a k') eqn:E.
  - apply String.eqb_eq in E as ->. destruct (String.eqb k k') eqn:E2; [apply String.eqb_eq in E2; exfalso; apply N; left; congruence|reflexivity].
  - apply IH. tauto.
Qed.
Lemma find_ent k es : ~ In k (map ek es) \/ exists a e b, es = a ++ e :: b /\ ek e = k /\ ~ In k (map ek a).
Proof.
  induction es as [|e es IH]; [now left|]. destruct (string_dec (ek e) k) as [E|N].
  - right. exists [], e, es. auto.
  - destruct IH as [IH|(a & e' & b & -> & E & Na)]; [left; cbn; tauto|]. right. exists (e :: a), e', b. cbn. split; [reflexivity|]. split; [assumption|tauto].
Qed.

Lemma NoDup_app3 {A} (x y : list A) : NoDup (x ++ y) -> NoDup x /\ NoDup y /\ (forall z, In z x -> ~ In z y).
Proof.
  induction x as [|a x IH]; cbn; intros N; [split; [constructor|auto]|]. inversion N as [|? ? N1 N2]; subst. destruct (IH N2) as (I1 & I2 & I3).
  split; [constructor; [|assumption]; intros I; apply N1; apply in_or_app; auto|]. split; [assumption|].
  intros z [<-|I]; [intros J; apply N1; apply in_or_app; auto|now apply I3].
Qed.
Lemma nodup_swap (l : loc) (A M B M' F : list loc) : NoDup (l :: A ++ M ++ B) -> NoDup M' ->
  (forall x, In x M' -> In x M \/ In x F) -> (forall x, In x F -> ~ In x (l :: A ++ M ++ B)) -> NoDup (l :: A ++ M' ++ B).
Proof.
  intros N NM I D. inversion N as [|? ? N1 N2]; subst. apply NoDup_app3 in N2 as (NA & N3 & DA). apply NoDup_app3 in N3 as (_ & NB & DM).
  assert (X : forall x, In x M' -> x <> l /\ ~ In x A /\ ~ In x B).
  { intros x J. destruct (I x J) as [K|K].
    - split; [intros ->; apply N1; rewrite !in_app_iff; auto|]. split; [|now apply DM]. intros Q. apply (DA x Q). apply in_or_app. auto.
    - specialize (D x K). cbn in D. rewrite !in_app_iff in D. split; [intros ->; tauto|tauto]. }
  constructor.
  - rewrite !in_app_iff in N1 |- *. intros [Q|[Q|Q]]; [tauto| |tauto]. destruct (X l Q) as (? & _). congruence.
  - apply nodup_app; [assumption| |].
    + apply nodup_app; [assumption|assumption|]. intros x J. apply X. assumption.
    + intros x J Q. apply in_app_or in Q as [Q|Q]; [destruct (X x Q) as (_ & ? & _); contradiction|]. apply (DA x J). apply in_or_app. auto.
Qed.

Definition append_step (app : heap -> loc -> loc -> option heap) (h : heap) (l : loc) (ow : bool) (k : string) (vo : pv) : option heap :=
  match entry h l k with
  | Some (PServer c) => match vo with
                        | PServer c2 => app h c c2
                        | _ => if ow then set_item h l k vo else Some h
                        end
  | Some _ => if ow then set_item h l k vo else Some h
  | None => set_item h l k vo
  end.
Lemma append_keys_cons app (h : heap) l l2 ow k r : append_keys app h l l2 ow (k :: r) =
  match entry h l2 k with
  | None => None
  | Some vo => match append_step app h l ow k vo with Some h' => append_keys app h' l l2 ow r | None => None end
  end.
Proof. reflexivity. Qed.

Lemma he_frame (h h' : heap) es : he h es -> (forall x, In x (f_of es) -> nth_error h' x = nth_error h x) -> he h' es.
Proof.
  intros H. induction H as [|e es V _ IH]; intros A; [constructor|]. cbn in A. constructor.
  - eapply (proj1 (proj2 (proj2 (holds_frame h)))); [exact V|]. intros x I. apply A. apply in_or_app. auto.
  - apply IH. intros x I. apply A. apply in_or_app. auto.
Qed.

Lemma upd_root (h : heap) l st k v : nth_error h l = Some st -> nth_error (upd h l k v) l = Some (dset st k v).
Proof. intros E. unfold upd. rewrite E. apply set_nth_same. now apply nth_lt in E. Qed.

Definition step_post (h' h'' : heap) (l : loc) (k : string) (es es' : list ent) (f2 : list loc) : Prop :=
  nth_error h'' l = Some (st_of es') /\ he h'' es' /\ clean_dict (d_of es') /\ NoDup (l :: f_of es') /\
  incl (f_of es') (f_of es ++ f2) /\ length h'' = length h' /\
  (forall x, x <> l -> (forall e, In e es -> ek e = k -> ~ In x (ef e)) -> nth_error h'' x = nth_error h' x) /\
  (forall e, In e es' -> ek e <> k -> In e es) /\
  (forall k', k' <> k -> jget (d_of es') k' = jget (d_of es) k').

(** Adding a value under a new key. *)
Lemma step_new (h' : heap) l k v j f es : clean k -> clean_value j -> nth_error h' l = Some (st_of es) -> he h' es ->
  clean_dict (d_of es) -> NoDup (l :: f_of es) -> NoDup f -> (forall x, In x f -> ~ In x (l :: f_of es)) ->
  holds_value h' v j f -> ~ In k (map ek es) ->
  step_post h' (upd h' l k v) l k es (es ++ [{| ek := k; ev := v; ej := j; ef := f |}]) f /\
  jget (d_of (es ++ [{| ek := k; ev := v; ej := j; ef := f |}])) k = Some j.
Proof.
  intros Ck Cj E H C N Nf D Hv NI.
  assert (FO : f_of (es ++ [{| ek := k; ev := v; ej := j; ef := f |}]) = f_of es ++ f) by (rewrite f_of_app; unfold f_of at 2; cbn; now rewrite app_nil_r).
  assert (Ll : forall x, In x (f_of es ++ f) -> x <> l).
  { intros x I ->. apply in_app_or in I as [I|I]; [inversion N; contradiction|]. apply (D l I). now left. }
  assert (Hs : he (upd h' l k v) (es ++ [{| ek := k; ev := v; ej := j; ef := f |}])).
  { apply (he_frame h'); [apply Forall_app; split; [assumption|]; constructor; [exact Hv|constructor]|].
    rewrite FO. intros x I. apply upd_nth_other. now apply Ll. }
  split; [split; [|split; [|split; [|split; [|split; [|split; [|split; [|split]]]]]]]|].
  - rewrite (upd_root _ _ _ _ _ E). f_equal. rewrite dset_new by now rewrite keys_st. now rewrite st_of_app.
  - assumption.
  - apply clean_dict_iff in C as [C1 C2]. apply clean_dict_iff. rewrite keys_d in *. rewrite map_app. split.
    + apply nodup_app; [assumption|repeat constructor; intros []|]. intros x I [<-|[]]. contradiction.
    + rewrite d_of_app. apply Forall_app. split; [assumption|]. constructor; [now split|constructor].
  - rewrite FO. inversion N as [|? ? N1 N2]; subst. constructor; [intros I; now apply (Ll l)|].
    apply nodup_app; auto. intros x I J. apply (D x J). now right.
  - rewrite FO. apply incl_refl.
  - apply upd_length.
  - intros x Nx _. now apply upd_nth_other.
  - intros e I Ne. apply in_app_or in I as [I|[<-|[]]]; [assumption|]. now cbn in Ne.
  - intros k' Nk. rewrite d_of_app. cbn. rewrite jget_app_new by now rewrite keys_d.
    destruct (String.eqb k k') eqn:Q; [apply String.eqb_eq in Q; congruence|reflexivity].
  - rewrite d_of_app. cbn. rewrite jget_app_new by now rewrite keys_d. now rewrite String.eqb_refl.
Qed.

(** Replacing the entry in the middle; the heap may have changed in the old entry's servers
    and in the store of [l]. *)
Lemma step_mid (h' h'' : heap) l v j f a e b (F : list loc) : clean_value j -> he h' (a ++ e :: b) ->
  clean_dict (d_of (a ++ e :: b)) -> NoDup (l :: f_of (a ++ e :: b)) -> NoDup f ->
  (forall x, In x f -> In x (ef e) \/ In x F) -> (forall x, In x F -> ~ In x (l :: f_of (a ++ e :: b))) ->
  holds_value h'' v j f -> ~ In (ek e) (map ek a) -> length h'' = length h' ->
  (forall x, x <> l -> ~ In x (ef e) -> nth_error h'' x = nth_error h' x) ->
  nth_error h'' l = Some (st_of (a ++ {| ek := ek e; ev := v; ej := j; ef := f |} :: b)) ->
  step_post h' h'' l (ek e) (a ++ e :: b) (a ++ {| ek := ek e; ev := v; ej := j; ef := f |} :: b) F /\
  jget (d_of (a ++ {| ek := ek e; ev := v; ej := j; ef := f |} :: b)) (ek e) = Some j.
Proof.
  intros Cj H C N Nf I D Hv Na Len K E. set (e' := {| ek := ek e; ev := v; ej := j; ef := f |}) in *.
  assert (FO : forall x, f_of (a ++ x :: b) = f_of a ++ ef x ++ f_of b) by (intros x; rewrite f_of_app; reflexivity).
  rewrite FO in N, D.
  assert (N' : NoDup (l :: f_of a ++ ef e' ++ f_of b)) by (eapply nodup_swap; [exact N|exact Nf|exact I|exact D]).
  assert (SEP : forall x, In x (f_of a) \/ In x (f_of b) -> x <> l /\ ~ In x (ef e)).
  { inversion N as [|? ? N1 N2]; subst. apply NoDup_app3 in N2 as (_ & N3 & DA). apply NoDup_app3 in N3 as (_ & _ & DM).
    intros x [J|J]; (split; [intros ->; apply N1; rewrite !in_app_iff; auto|]).
    - intros Q. apply (DA x J). apply in_or_app. auto.
    - intros Q. apply (DM x Q J). }
  apply Forall_app in H as [Ha Hb]. inversion Hb as [|? ? He Hb']; subst.
  split; [split; [|split; [|split; [|split; [|split; [|split; [|split; [|split]]]]]]]|].
  - exact E.
  - apply Forall_app. split; [|constructor; [exact Hv|]].
    + apply (he_frame h'); [assumption|]. intros x J. apply K; now apply SEP; auto.
    + apply (he_frame h'); [assumption|]. intros x J. apply K; now apply SEP; auto.
  - apply clean_dict_iff in C as [C1 C2]. apply clean_dict_iff. rewrite keys_d in *. rewrite map_app in *. cbn in *. split; [assumption|].
    rewrite d_of_app in *. apply Forall_app in C2 as [C2 C3]. inversion C3 as [|? ? [C4 C5] C6]; subst. apply Forall_app. split; [assumption|].
    constructor; [now split|assumption].
  - rewrite FO. exact N'.
  - rewrite !FO. intros x J. rewrite !in_app_iff in *. destruct J as [J|[J|J]]; auto. destruct (I x J); auto.
  - exact Len.
  - intros x Nx Q. apply K; [assumption|]. apply Q; [apply in_or_app; right; now left|reflexivity].
  - intros x J Nx. apply in_app_or in J as [J|[<-|J]]; [apply in_or_app; auto|now cbn in Nx|apply in_or_app; right; now right].
  - intros k' Nk. apply (jget_mid_other a e e' b k'); auto.
  - exact (jget_mid a e' b Na).
Qed.

Lemma holds_value_dict h v j f : holds_value h v j f -> (exists c, v = PServer c) <-> is_dict j = true.
Proof.
  intros H. destruct H as [j P|c d f H|c cs d ds f H].
  - destruct j; try discriminate; split; try (intros [? ?]; discriminate); discriminate.
  - split; eauto.
  - split; [intros [? ?]; discriminate|discriminate].
Qed.

Lemma append_ok ow h :
  (forall l2 d2 f2, holds h l2 d2 f2 -> clean_dict d2 -> NoDup f2 -> forall h' l d1 f1 n, agree h h' f2 -> holds h' l d1 f1 ->
     clean_dict d1 -> NoDup f1 -> (forall x, In x f2 -> ~ In x f1) -> length f2 <= n ->
     exists h'' d f, append n ow h' l l2 = Some h'' /\ holds h'' l d f /\ NoDup f /\ incl f (f1 ++ f2) /\ clean_dict d /\
       length h'' = length h' /\ (forall x, ~ In x f1 -> nth_error h'' x = nth_error h' x) /\ merged ow d1 d2 d) /\
  (forall st2 d2 f2, holds_entries h st2 d2 f2 -> clean_dict d2 -> NoDup f2 -> forall h' l l2 pre es n W, agree h h' f2 ->
     nth_error h' l2 = Some (pre ++ st2) -> NoDup (map fst (pre ++ st2)) -> nth_error h' l = Some (st_of es) -> he h' es ->
     clean_dict (d_of es) -> NoDup (l :: f_of es) -> (forall x, In x f2 -> ~ In x (l :: f_of es)) ->
     In l W -> (forall e, In e es -> In (ek e) (map fst st2) -> incl (ef e) W) -> ~ In l2 W -> (forall x, In x f2 -> ~ In x W) -> length f2 <= n ->
     exists h'' es', append_keys (append n ow) h' l l2 ow (map fst st2) = Some h'' /\ nth_error h'' l = Some (st_of es') /\ he h'' es' /\
       clean_dict (d_of es') /\ NoDup (l :: f_of es') /\ incl (f_of es') (f_of es ++ f2) /\ length h'' = length h' /\
       (forall x, ~ In x W -> nth_error h'' x = nth_error h' x) /\
       (forall k, merged_at ow (jget (d_of es) k) (jget d2 k) (jget (d_of es') k))) /\
  (forall v j f2, holds_value h v j f2 -> clean_value j -> NoDup f2 -> forall h' l k es n, clean k -> agree h h' f2 ->
     nth_error h' l = Some (st_of es) -> he h' es ->
     clean_dict (d_of es) -> NoDup (l :: f_of es) -> (forall x, In x f2 -> ~ In x (l :: f_of es)) -> length f2 <= n ->
     exists h'' es', append_step (append n ow) h' l ow k v = Some h'' /\ step_post h' h'' l k es es' f2 /\
       merged_at ow (jget (d_of es) k) (Some j) (jget (d_of es') k)) /\
  (forall cs ds f, holds_list h cs ds f -> True).
Proof.
  apply holds_mut with
   (P := fun l2 d2 f2 _ => clean_dict d2 -> NoDup f2 -> forall h' l d1 f1 n, agree h h' f2 -> holds h' l d1 f1 ->
     clean_dict d1 -> NoDup f1 -> (forall x, In x f2 -> ~ In x f1) -> length f2 <= n ->
     exists h'' d f, append n ow h' l l2 = Some h'' /\ holds h'' l d f /\ NoDup f /\ incl f (f1 ++ f2) /\ clean_dict d /\
       length h'' = length h' /\ (forall x, ~ In x f1 -> nth_error h'' x = nth_error h' x) /\ merged ow d1 d2 d)
   (P0 := fun st2 d2 f2 _ => clean_dict d2 -> NoDup f2 -> forall h' l l2 pre es n W, agree h h' f2 ->
     nth_error h' l2 = Some (pre ++ st2) -> NoDup (map fst (pre ++ st2)) -> nth_error h' l = Some (st_of es) -> he h' es ->
     clean_dict (d_of es) -> NoDup (l :: f_of es) -> (forall x, In x f2 -> ~ In x (l :: f_of es)) ->
     In l W -> (forall e, In e es -> In (ek e) (map fst st2) -> incl (ef e) W) -> ~ In l2 W -> (forall x, In x f2 -> ~ In x W) -> length f2 <= n ->
     exists h'' es', append_keys (append n ow) h' l l2 ow (map fst st2) = Some h'' /\ nth_error h'' l = Some (st_of es') /\ he h'' es' /\
       clean_dict (d_of es') /\ NoDup (l :: f_of es') /\ incl (f_of es') (f_of es ++ f2) /\ length h'' = length h' /\
       (forall x, ~ In x W -> nth_error h'' x = nth_error h' x) /\
       (forall k, merged_at ow (jget (d_of es) k) (jget d2 k) (jget (d_of es') k)))
   (P1 := fun v j f2 _ => clean_value j -> NoDup f2 -> forall h' l k es n, clean k -> agree h h' f2 ->
     nth_error h' l = Some (st_of es) -> he h' es ->
     clean_dict (d_of es) -> NoDup (l :: f_of es) -> (forall x, In x f2 -> ~ In x (l :: f_of es)) -> length f2 <= n ->
     exists h'' es', append_step (append n ow) h' l ow k v = Some h'' /\ step_post h' h'' l k es es' f2 /\
       merged_at ow (jget (d_of es) k) (Some j) (jget (d_of es') k))
   (P2 := fun cs ds f _ => True); try trivial.
  - intros l2 st2 d2 f2 E Hs IH C N h' l d1 f1 n A H C1 N1 D L. destruct n as [|n]; [cbn in L; lia|]. cbn [append].
    rewrite (A l2 (or_introl eq_refl)), E.
    inversion H as [? st1 ? g1 E1 HE]; subst. destruct (holds_he _ _ _ _ HE) as (es & H1 & -> & -> & ->).
    inversion N as [|? ? N2 N3]; subst.
    destruct (IH C N3 h' l l2 [] es n (l :: f_of es)) as (h'' & es' & R1 & R2 & R3 & R4 & R5 & R6 & R7 & R8 & R9); auto.
    + intros x I. apply A. now right.
    + cbn. rewrite (A l2 (or_introl eq_refl)). exact E.
    + cbn. apply clean_dict_iff in C as [C _]. clear - Hs C. enough (map fst st2 = map fst d2) by congruence. clear C.
      induction Hs; cbn; congruence.
    + intros x I. apply D. now right.
    + now left.
    + intros e I _ x J. right. unfold f_of. apply in_concat. exists (ef e). split; [now apply in_map|assumption].
    + apply D. now left.
    + intros x I. apply D. now right.
    + cbn in L. lia.
    + exists h'', (d_of es'), (l :: f_of es'). split; [assumption|].
      split; [apply holds_server with (st_of es'); [assumption|now apply he_holds]|]. split; [assumption|].
      split; [|repeat (split; [assumption|]); now constructor].
      intros x [<-|I]; [now left|]. apply R6 in I. apply in_app_or in I as [I|I]; [right; apply in_or_app; auto|]. right. apply in_or_app. right. now right.
  - intros _ _ h' l l2 pre es n W A E2 NK E1 H1 C N D WI WE W2 WF L. exists h', es. split; [reflexivity|]. repeat (split; [assumption|]).
    split; [intros x I; apply in_or_app; auto|]. split; [reflexivity|]. split; [reflexivity|]. intros k. cbn. constructor.
  - intros k v j f st2 d2 fs Hv IHv Hs IHs C Nf h' l l2 pre es n W A E2 NK E1 H1 Cd N D WI WE W2 WF L.
    inversion C as [|? ? ? C1 C2 C3 C4]; subst. rewrite app_length in L. apply agree_app in A as [Aa Ab].
    apply NoDup_app3 in Nf as (Nf1 & Nf2 & Nf3).
    assert (IN1 : forall x, In x f -> In x (f ++ fs)) by (intros; apply in_or_app; auto).
    assert (IN2 : forall x, In x fs -> In x (f ++ fs)) by (intros; apply in_or_app; auto).
    destruct (IHv C3 Nf1 h' l k es n) as (h1 & es1 & S1 & S2 & S3); auto; [lia|].
    destruct S2 as (P1 & P2 & P3 & P4 & P5 & P6 & P7 & P8 & P9).
    assert (NKk : ~ In k (map fst pre) /\ ~ In k (map fst st2)).
    { rewrite map_app in NK. apply NoDup_app3 in NK as (_ & NK & NKd). cbn in NK. inversion NK; subst. split; [|assumption].
      intros I. apply (NKd k I). now left. }
    assert (KW : forall x, ~ In x W -> nth_error h1 x = nth_error h' x).
    { intros x Nx. apply P7; [intros ->; contradiction|]. intros e I Ek J. apply Nx. apply (WE e I); [left; exact (eq_sym Ek)|assumption]. }
    destruct (IHs C4 Nf2 h1 l l2 (pre ++ [(k, v)]) es1 n W) as (h2 & es2 & R1 & R2 & R3 & R4 & R5 & R6 & R7 & R8 & R9); auto.
    + intros x I. rewrite KW by auto. now apply Ab.
    + rewrite KW by assumption. rewrite E2. now rewrite <- app_assoc.
    + now rewrite <- app_assoc.
    + intros x I [->|J]; [apply (D x (IN2 x I)); now left|]. apply P5 in J. apply in_app_or in J as [J|J].
      * apply (D x (IN2 x I)). now right.
      * exact (Nf3 x J I).
    + intros e I Ie. apply (WE e); [|now right]. apply P8; [assumption|]. intros Q. rewrite Q in Ie. tauto.
    + lia.
    + exists h2, es2. change (map fst ((k, v) :: st2)) with (k :: map fst st2). rewrite append_keys_cons.
      assert (Ek : entry h' l2 k = Some v).
      { unfold entry. rewrite E2. clear - NKk. induction pre as [|[a w] pre IH]; cbn; [now rewrite String.eqb_refl|].
        cbn in NKk. destruct (String.eqb a k) eqn:Q; [apply String.eqb_eq in Q; tauto|]. apply IH. tauto. }
      rewrite Ek, S1. split; [assumption|]. repeat (split; [assumption|]). split.
      { intros x I. apply R6 in I. apply in_app_or in I as [I|I]; [apply P5 in I; apply in_app_or in I as [I|I]|]; rewrite !in_app_iff; auto. }
      split; [lia|]. split; [intros x Nx; rewrite R8 by assumption; now apply KW|].
      intros k'. specialize (R9 k'). cbn [jget]. destruct (String.eqb k k') eqn:Q.
      * apply String.eqb_eq in Q as <-. assert (G : jget d2 k = None) by now apply jget_none. rewrite G in R9.
        assert (G2 : jget (d_of es2) k = jget (d_of es1) k) by (inversion R9; subst; congruence). now rewrite G2.
      * rewrite P9 in R9; [assumption|]. intros ->. now rewrite String.eqb_refl in Q.
  - intros j P C N h' l k es n Ck A E1 H1 Cd Nd D L.
    assert (Hv : holds_value h' (PVal j) j []) by now constructor.
    assert (Sv : stored_as_is (PVal j)) by now apply plain_as_is.
    assert (JD : is_dict j = false) by now destruct j.
    unfold append_step, entry. rewrite E1. destruct (find_ent k es) as [NI|(a & e & b & -> & <- & Na)].
    + rewrite dget_st by assumption. rewrite set_item_clean by assumption.
      destruct (step_new h' l k (PVal j) j [] es) as [S1 S2]; auto.
      eexists _, _. split; [reflexivity|]. split; [exact S1|]. rewrite S2. assert (G : jget (d_of es) k = None) by (apply jget_none; now rewrite keys_d).
      rewrite G. constructor.
    + rewrite dget_mid by assumption.
      assert (MA : merged_at ow (Some (ej e)) (Some j) (Some (if ow then j else ej e))) by (constructor; rewrite JD; apply andb_false_r).
      assert (SET : exists h'' es', (if ow then set_item h' l (ek e) (PVal j) else Some h') = Some h'' /\
        step_post h' h'' l (ek e) (a ++ e :: b) es' [] /\ jget (d_of es') (ek e) = Some (if ow then j else ej e)).
      { destruct ow.
        - rewrite set_item_clean by assumption.
          destruct (step_mid h' (upd h' l (ek e) (PVal j)) l (PVal j) j [] a e b []) as [S1 S2]; auto; try (match goal with |- forall x, In x [] -> _ => intros x [] end); try (now constructor).
          + apply upd_length.
          + intros x Nx _. now apply upd_nth_other.
          + rewrite (upd_root _ _ _ _ _ E1). now rewrite (dset_mid a e b (PVal j) j []).
          + eexists _, _. split; [reflexivity|]. split; [exact S1|exact S2].
        - exists h', (a ++ e :: b). split; [reflexivity|]. split; [|now apply jget_mid].
          unfold step_post. repeat (split; [assumption|]). split; [apply incl_appl; apply incl_refl|]. auto. }
      destruct SET as (h'' & es' & T1 & T2 & T3). exists h'', es'. rewrite jget_mid by assumption. rewrite T3.
      split; [|auto]. destruct (ev e); assumption.
  - intros c2 e2 f2 Hc IH C N h' l k es n Ck A E1 H1 Cd Nd D L.
    assert (Hc' : holds h' c2 e2 f2) by (eapply (proj1 (holds_frame h)); eauto).
    assert (Hv : holds_value h' (PServer c2) (JDict e2) f2) by now constructor.
    assert (Sv : stored_as_is (PServer c2)) by (intros ?; reflexivity).
    inversion C as [? P|? Ce|]; subst; [discriminate|].
    unfold append_step, entry. rewrite E1. destruct (find_ent k es) as [NI|(a & e & b & -> & <- & Na)].
    + rewrite dget_st by assumption. rewrite set_item_clean by assumption.
      destruct (step_new h' l k (PServer c2) (JDict e2) f2 es) as [S1 S2]; auto.
      eexists _, _. split; [reflexivity|]. split; [exact S1|]. rewrite S2. assert (G : jget (d_of es) k = None) by (apply jget_none; now rewrite keys_d).
      rewrite G. constructor.
    + rewrite dget_mid by assumption.
      assert (He : holds_value h' (ev e) (ej e) (ef e)).
      { unfold he in H1. rewrite Forall_forall in H1. apply H1. apply in_or_app. right. now left. }
      destruct (ev e) as [xj|c|cs] eqn:Ev.
      * assert (XD : is_dict (ej e) = false).
        { destruct (is_dict (ej e)) eqn:Q; [|reflexivity]. apply (holds_value_dict _ _ _ _ He) in Q as [? ?]. discriminate. }
        assert (MA : merged_at ow (Some (ej e)) (Some (JDict e2)) (Some (if ow then JDict e2 else ej e))) by (constructor; now rewrite XD).
        destruct ow.
        -- rewrite set_item_clean by assumption.
           destruct (step_mid h' (upd h' l (ek e) (PServer c2)) l (PServer c2) (JDict e2) f2 a e b f2) as [S1 S2]; auto.
           ++ constructor. eapply (proj1 (holds_frame h')); [exact Hc'|]. intros x I. apply upd_nth_other. intros ->. apply (D l I). now left.
           ++ apply upd_length.
           ++ intros x Nx _. now apply upd_nth_other.
           ++ rewrite (upd_root _ _ _ _ _ E1). now rewrite (dset_mid a e b (PServer c2) (JDict e2) f2).
           ++ eexists _, _. split; [reflexivity|]. split; [exact S1|]. rewrite S2. rewrite jget_mid by assumption. exact MA.
        -- exists h', (a ++ e :: b). split; [reflexivity|]. rewrite jget_mid by assumption. split; [|exact MA].
           unfold step_post. repeat (split; [assumption|]). split; [apply incl_appl; apply incl_refl|]. auto.
      * inversion He as [|? e1 ? Hc1 Q1 Q2|]; subst.
        assert (FO : forall x, f_of (a ++ x :: b) = f_of a ++ ef x ++ f_of b) by (intros x; rewrite f_of_app; reflexivity).
        assert (Nd' := Nd). rewrite FO in Nd'. inversion Nd' as [|? ? Nl Nr]; subst. apply NoDup_app3 in Nr as (_ & Nr & DA). apply NoDup_app3 in Nr as (Ne & _ & DM).
        assert (Ce1 : clean_dict e1).
        { apply clean_dict_iff in Cd as [_ Cd]. rewrite d_of_app in Cd. apply Forall_app in Cd as [_ Cd]. inversion Cd as [|? ? [_ V] _]; subst.
          cbn in V. rewrite <- Q2 in V. inversion V as [? P|? ?|]; subst; [discriminate|assumption]. }
        assert (De : forall x, In x f2 -> ~ In x (ef e)).
        { intros x I J. apply (D x I). rewrite FO. right. rewrite !in_app_iff. auto. }
        destruct (IH Ce N h' c e1 (ef e) n) as (h'' & m & fm & R1 & R2 & R3 & R4 & R5 & R6 & R7 & R8); auto.
        assert (le : ~ In l (ef e)) by (intros I; apply Nl; rewrite !in_app_iff; auto).
        destruct (step_mid h' h'' l (PServer c) (JDict m) fm a e b f2) as [S1 S2]; auto.
        -- now apply cv_dict.
        -- intros x I. apply R4 in I. now apply in_app_or.
        -- now constructor.
        -- rewrite R7 by assumption. rewrite E1. f_equal. rewrite !st_of_app. cbn [st_of map ek ev]. rewrite Ev. reflexivity.
        -- exists h''. eexists. split; [exact R1|]. split; [exact S1|]. rewrite S2. rewrite jget_mid by assumption.
           rewrite <- Q2. now apply ma_groups.
      * assert (XD : is_dict (ej e) = false).
        { destruct (is_dict (ej e)) eqn:Q; [|reflexivity]. apply (holds_value_dict _ _ _ _ He) in Q as [? ?]. discriminate. }
        assert (MA : merged_at ow (Some (ej e)) (Some (JDict e2)) (Some (if ow then JDict e2 else ej e))) by (constructor; now rewrite XD).
        destruct ow.
        -- rewrite set_item_clean by assumption.
           destruct (step_mid h' (upd h' l (ek e) (PServer c2)) l (PServer c2) (JDict e2) f2 a e b f2) as [S1 S2]; auto.
           ++ constructor. eapply (proj1 (holds_frame h')); [exact Hc'|]. intros x I. apply upd_nth_other. intros ->. apply (D l I). now left.
           ++ apply upd_length.
           ++ intros x Nx _. now apply upd_nth_other.
           ++ rewrite (upd_root _ _ _ _ _ E1). now rewrite (dset_mid a e b (PServer c2) (JDict e2) f2).
           ++ eexists _, _. split; [reflexivity|]. split; [exact S1|]. rewrite S2. rewrite jget_mid by assumption. exact MA.
        -- exists h', (a ++ e :: b). split; [reflexivity|]. rewrite jget_mid by assumption. split; [|exact MA].
           unfold step_post. repeat (split; [assumption|]). split; [apply incl_appl; apply incl_refl|]. auto.
  - intros c2 cs2 e2 ds f2 Hl _ C N h' l k es n Ck A E1 H1 Cd Nd D L.
    assert (Hl' : holds_list h' (c2 :: cs2) (e2 :: ds) f2) by (eapply (proj2 (proj2 (proj2 (holds_frame h)))); eauto).
    assert (Hv : holds_value h' (PServers (c2 :: cs2)) (JList (map JDict (e2 :: ds))) f2) by now constructor.
    assert (Sv : stored_as_is (PServers (c2 :: cs2))) by (intros ?; reflexivity).
    set (j := JList (map JDict (e2 :: ds))) in *. assert (JD : is_dict j = false) by reflexivity.
    unfold append_step, entry. rewrite E1. destruct (find_ent k es) as [NI|(a & e & b & -> & <- & Na)].
    + rewrite dget_st by assumption. rewrite set_item_clean by assumption.
      destruct (step_new h' l k (PServers (c2 :: cs2)) j f2 es) as [S1 S2]; auto.
      eexists _, _. split; [reflexivity|]. split; [exact S1|]. rewrite S2. assert (G : jget (d_of es) k = None) by (apply jget_none; now rewrite keys_d).
      rewrite G. constructor.
    + rewrite dget_mid by assumption.
      assert (MA : merged_at ow (Some (ej e)) (Some j) (Some (if ow then j else ej e))) by (constructor; rewrite JD; apply andb_false_r).
      assert (SET : exists h'' es', (if ow then set_item h' l (ek e) (PServers (c2 :: cs2)) else Some h') = Some h'' /\
        step_post h' h'' l (ek e) (a ++ e :: b) es' f2 /\ jget (d_of es') (ek e) = Some (if ow then j else ej e)).
      { destruct ow.
        - rewrite set_item_clean by assumption.
          destruct (step_mid h' (upd h' l (ek e) (PServers (c2 :: cs2))) l (PServers (c2 :: cs2)) j f2 a e b f2) as [S1 S2]; auto.
          + constructor. eapply (proj2 (proj2 (proj2 (holds_frame h')))); [exact Hl'|]. intros x I. apply upd_nth_other. intros ->. apply (D l I). now left.
          + apply upd_length.
          + intros x Nx _. now apply upd_nth_other.
          + rewrite (upd_root _ _ _ _ _ E1). now rewrite (dset_mid a e b (PServers (c2 :: cs2)) j f2).
          + eexists _, _. split; [reflexivity|]. split; [exact S1|exact S2].
        - exists h', (a ++ e :: b). split; [reflexivity|]. split; [|now apply jget_mid].
          unfold step_post. repeat (split; [assumption|]). split; [apply incl_appl; apply incl_refl|]. auto. }
      destruct SET as (h'' & es' & T1 & T2 & T3). exists h'', es'. rewrite jget_mid by assumption. rewrite T3.
      split; [|auto]. destruct (ev e); assumption.
Qed.
