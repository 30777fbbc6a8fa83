(** Lemmas about the benchmark runner model. *)
From Coq Require Import List Arith Lia Bool Permutation.
Import ListNotations.
From Verif Require Import Model_Benchmark.

Section P.
Context {C D H : Type}.
Notation conf := (conf C). Notation row := (row D). Notation fs := (fs C D H).
Notation bres := (bres C D H). Notation member := (member C H).
Notation item := (item C H). Notation zip := (zip C D H).
Notation M := (M C D H).

Lemma path_eqb_refl p : path_eqb p p = true.
Proof. destruct p; simpl; auto using Nat.eqb_refl. Qed.

Lemma path_eqb_eq p q : path_eqb p q = true <-> p = q.
Proof.
  split; [ | intros ->; apply path_eqb_refl ].
  destruct p, q; simpl; intros E; try discriminate; auto;
  apply Nat.eqb_eq in E; subst; auto.
Qed.

Lemma path_eqb_neq p q : path_eqb p q = false <-> p <> q.
Proof.
  rewrite <- not_true_iff_false, path_eqb_eq. tauto.
Qed.

Lemma upd_same (f : fs) p x : upd f p x p = x.
Proof. unfold upd. now rewrite path_eqb_refl. Qed.

Lemma upd_other (f : fs) p q x : p <> q -> upd f p x q = f q.
Proof. intros N. unfold upd. apply path_eqb_neq in N. now rewrite N. Qed.

Lemma kind_eqb_eq a b : kind_eqb a b = true <-> a = b.
Proof. destruct a, b; simpl; split; auto; discriminate. Qed.

Lemma name_eqb_eq a b : name_eqb a b = true <-> a = b.
Proof.
  unfold name_eqb. destruct a as [k l], b as [k' l']; simpl.
  rewrite andb_true_iff, kind_eqb_eq.
  destruct (list_eq_dec Nat.eq_dec l l'); split; intros E.
  - destruct E; subst; auto.
  - inversion E; auto.
  - destruct E; discriminate.
  - inversion E; contradiction.
Qed.

Lemma overlapb_true a b : overlapb a b = true <-> exists i, In i a /\ In i b.
Proof.
  unfold overlapb. rewrite existsb_exists. split.
  - intros (i & I & E). apply existsb_exists in E as (j & J & Ej).
    apply Nat.eqb_eq in Ej; subst. eauto.
  - intros (i & I & J). exists i. split; auto. apply existsb_exists. exists i.
    split; auto. apply Nat.eqb_refl.
Qed.

Lemma overlapb_false a b : overlapb a b = false <-> forall i, In i a -> In i b -> False.
Proof.
  rewrite <- not_true_iff_false, overlapb_true. firstorder.
Qed.

Lemma NoDup_app_inv {A} (a b : list A) :
  NoDup (a ++ b) -> NoDup a /\ NoDup b /\ (forall x, In x a -> In x b -> False).
Proof.
  induction a as [|x a IH]; simpl; intros N.
  - repeat split; auto. constructor.
  - apply NoDup_cons_iff in N as [Nx N]. destruct (IH N) as (Ha & Hb & Hd).
    rewrite in_app_iff in Nx. repeat split; auto.
    + constructor; tauto.
    + intros y [<-|I] J; [tauto|eauto].
Qed.

(** ** The getters *)

Lemma dicts_le (b : bres) : length (b_dicts b) <= length (get_data_frame b).
Proof.
  unfold get_data_frame. destruct (b_df b) as [d|]; auto.
  destruct (Nat.ltb_spec (length d) (length (b_dicts b))); lia.
Qed.

Lemma result_dict_le (b : bres) :
  length (get_result_dict (touch b)) <= length (get_data_frame b).
Proof.
  unfold get_result_dict, touch; simpl. generalize (dicts_le b).
  destruct (b_dicts b); auto.
Qed.

(** ** Chunks *)

Lemma chunks_fuel_concat {A} n (l : list A) fuel :
  0 < n -> length l <= fuel -> concat (chunks_fuel fuel n l) = l.
Proof.
  intros Hn. revert l. induction fuel as [|k IH]; intros l Hl; simpl.
  - destruct l; auto. simpl in Hl; lia.
  - destruct l as [|x l]; auto. cbn [concat]. rewrite IH.
    + apply firstn_skipn.
    + rewrite skipn_length. cbn [length] in *. lia.
Qed.

Lemma chunks_concat {A} n (l : list A) : 0 < n -> concat (chunks n l) = l.
Proof. intros; apply chunks_fuel_concat; auto. Qed.

Lemma chunks_fuel_nonempty {A} n (l : list A) fuel c :
  0 < n -> In c (chunks_fuel fuel n l) -> c <> [].
Proof.
  intros Hn. revert l. induction fuel as [|k IH]; intros l; simpl; [tauto|].
  destruct l as [|x l]; [simpl; tauto|]. intros [<-|I].
  - destruct n; [lia|]. simpl. discriminate.
  - eapply IH; eauto.
Qed.

Lemma chunks_nonempty {A} n (l : list A) c : 0 < n -> In c (chunks n l) -> c <> [].
Proof. intros; eapply chunks_fuel_nonempty; eauto. Qed.

Lemma chunks_fuel_size {A} n (l : list A) fuel c :
  In c (chunks_fuel fuel n l) -> length c <= n.
Proof.
  revert l. induction fuel as [|k IH]; intros l; simpl; [tauto|].
  destruct l as [|x l]; [simpl; tauto|]. intros [<-|I].
  - rewrite firstn_length. lia.
  - eapply IH; eauto.
Qed.

(** ** sorted dicts *)

Lemma sorted_set_perm {V} (d : list (nat * V)) k v :
  ~ In k (map fst d) -> Permutation (sorted_set d k v) ((k, v) :: d).
Proof.
  induction d as [|[j w] r IH]; simpl; intros N; auto.
  destruct (k <? j); auto.
  destruct (Nat.eqb_spec j k); [tauto|].
  rewrite IH by tauto. apply perm_swap.
Qed.

Lemma sorted_dict_perm_gen {V} (l d : list (nat * V)) :
  NoDup (map fst (d ++ l)) ->
  Permutation (fold_left (fun d kv => sorted_set d (fst kv) (snd kv)) l d) (d ++ l).
Proof.
  revert d. induction l as [|[k v] r IH]; intros d N; simpl.
  - rewrite app_nil_r; auto.
  - assert (NI : ~ In k (map fst d)).
    { rewrite map_app in N. simpl in N. apply NoDup_remove_2 in N.
      rewrite in_app_iff in N. tauto. }
    assert (P := sorted_set_perm d k v NI).
    rewrite IH.
    + rewrite P. simpl. apply Permutation_middle.
    + eapply Permutation_NoDup; [|exact N].
      apply Permutation_map. rewrite P. simpl. symmetry. apply Permutation_middle.
Qed.

Lemma sorted_dict_perm {V} (l : list (nat * V)) :
  NoDup (map fst l) -> Permutation (sorted_dict l) l.
Proof. intros N. apply (sorted_dict_perm_gen l []). exact N. Qed.

(** ** Members *)

Definition payload (ms : list member) : list (nat * item) := concat (map snd ms).
Definition ne_members (ms : list member) : Prop := forall m, In m ms -> snd m <> [].
Definition names_disjoint (a b : list member) : Prop :=
  forall x y, In x a -> In y b -> m_name x <> m_name y.

Lemma existsb_name_false (ms : list member) (m : member) :
  (forall x, In x ms -> m_name x <> m_name m) ->
  existsb (fun m1 : member => name_eqb (m_name m1) (m_name m)) ms = false.
Proof.
  intros N. apply not_true_iff_false. rewrite existsb_exists. intros (x & I & E).
  apply name_eqb_eq in E. eapply N; eauto.
Qed.

Lemma add_members_disjoint (new : list member) : forall ms,
  names_disjoint ms new -> NoDup (map m_name new) -> add_members ms new = ms ++ new.
Proof.
  induction new as [|m r IH]; intros ms N U; simpl.
  - now rewrite app_nil_r.
  - change (add_members (add_member ms m) r = ms ++ m :: r).
    unfold add_member. rewrite existsb_name_false by (intros; apply N; simpl; auto).
    simpl in U. inversion U; subst.
    rewrite IH; auto.
    + now rewrite <- app_assoc.
    + intros x y Ix Iy. apply in_app_iff in Ix as [Ix|[<-|[]]].
      * apply N; simpl; auto.
      * intros E. apply H2. rewrite E. apply in_map; auto.
Qed.

Lemma move_loop_disjoint (from ex : list member) : forall acc,
  names_disjoint ex from -> move_loop from ex acc = (acc ++ from, false).
Proof.
  induction from as [|m r IH]; intros acc N; simpl.
  - now rewrite app_nil_r.
  - rewrite existsb_name_false by (intros; apply N; simpl; auto).
    rewrite IH; [now rewrite <- app_assoc|].
    intros x y Ix Iy; apply N; simpl; auto.
Qed.

Lemma of_kind_in k (ms : list member) (m : member) : In m (of_kind k ms) <-> In m ms /\ fst m = k.
Proof. unfold of_kind. rewrite filter_In, kind_eqb_eq. tauto. Qed.

Lemma of_kind_app k (a b : list member) : of_kind k (a ++ b) = of_kind k a ++ of_kind k b.
Proof. apply filter_app. Qed.

Lemma of_kind_same k (a : list member) : (forall m, In m a -> fst m = k) -> of_kind k a = a.
Proof.
  intros N. induction a as [|m r IH]; simpl; auto.
  unfold of_kind in *. simpl. rewrite (proj2 (kind_eqb_eq (fst m) k)) by (apply N; simpl; auto).
  f_equal; apply IH. intros; apply N; simpl; auto.
Qed.

Lemma of_kind_other k (a : list member) : (forall m, In m a -> fst m <> k) -> of_kind k a = [].
Proof.
  intros N. induction a as [|m r IH]; simpl; auto.
  destruct (kind_eqb (fst m) k) eqn:E.
  - apply kind_eqb_eq in E. exfalso. eapply N; simpl; eauto.
  - apply IH. intros; apply N; simpl; auto.
Qed.

Lemma names_disjoint_of_kind k k' (a b : list member) :
  names_disjoint a b -> names_disjoint (of_kind k a) (of_kind k' b).
Proof. intros N x y Ix Iy. apply of_kind_in in Ix, Iy. apply N; tauto. Qed.

(** names with disjoint, nonempty key lists differ *)
Lemma names_disjoint_keys (a b : list member) :
  ne_members a ->
  (forall i, In i (map fst (payload a)) -> In i (map fst (payload b)) -> False) ->
  names_disjoint a b.
Proof.
  intros Na Hd x y Ix Iy E. unfold m_name in E. injection E as Ek El.
  specialize (Na x Ix). destruct (snd x) as [|[i v] l] eqn:Ex; [congruence|].
  assert (In i (map fst (snd x))) by (rewrite Ex; simpl; auto).
  apply (Hd i).
  - apply in_map_iff in H0 as (z & Ez & Iz). apply in_map_iff. exists z. split; auto.
    unfold payload. apply in_concat. exists (snd x). split; auto. apply in_map; auto.
  - assert (In i (map fst (snd y))) by (rewrite <- El; simpl; auto).
    apply in_map_iff in H1 as (z & Ez & Iz). apply in_map_iff. exists z. split; auto.
    unfold payload. apply in_concat. exists (snd y). split; auto. apply in_map; auto.
Qed.

Lemma payload_app (a b : list member) : payload (a ++ b) = payload a ++ payload b.
Proof. unfold payload. now rewrite map_app, concat_app. Qed.

Lemma payload_in (ms : list member) (m : member) x : In m ms -> In x (snd m) -> In x (payload ms).
Proof. intros I J. unfold payload. apply in_concat. exists (snd m). split; auto. apply in_map; auto. Qed.

Variable nfiles : kind -> list (nat * item) -> nat.
Definition nfiles_ok : Prop := forall k l, l <> [] -> 1 <= nfiles k l <= length l.

Lemma NoDup_map_keys_names k : forall (cs : list (list (nat * item))),
  (forall c, In c cs -> c <> []) -> NoDup (map fst (concat cs)) ->
  NoDup (map m_name (map (fun c => (k, c)) cs)).
Proof.
  induction cs as [|c r IH]; simpl; intros Ne N; constructor.
  - rewrite map_app in N. intros I. apply in_map_iff in I as (m & E & I).
    apply in_map_iff in I as (c' & <- & I).
    unfold m_name in E. simpl in E. injection E as E.
    destruct c as [|[i v] c]; [apply (Ne []); auto|].
    assert (J : In i (map fst (concat r))).
    { assert (J : In i (map fst c')) by (rewrite E; simpl; auto).
      apply in_map_iff in J as (z & Ez & Iz). apply in_map_iff. exists z; split; auto.
      apply in_concat; eauto. }
    simpl in N. apply NoDup_cons_iff in N as [N _]. apply N, in_or_app; auto.
  - apply IH; auto. rewrite map_app in N. apply NoDup_app_inv in N. tauto.
Qed.

Lemma split_ok k (l : list (nat * item)) :
  nfiles_ok -> l <> [] -> NoDup (map fst l) ->
  exists ms, split nfiles k l = inl ms /\ (forall m, In m ms -> fst m = k) /\
    ne_members ms /\ NoDup (map m_name ms) /\ Permutation (payload ms) l.
Proof.
  intros NF Nl N. specialize (NF k l Nl). unfold split.
  destruct (nfiles k l) as [|nf] eqn:E; [lia|].
  assert (0 < length l / S nf) by (apply Nat.div_str_pos; lia).
  destruct (length l / S nf) as [|n] eqn:E2; [lia|].
  assert (P := sorted_dict_perm l N).
  assert (Epl : payload (map (fun c => (k, c)) (chunks (S n) (sorted_dict l))) = sorted_dict l).
  { unfold payload. rewrite map_map. simpl. rewrite map_id. apply chunks_concat; lia. }
  eexists; split; [reflexivity|]. repeat split.
  - intros m I. apply in_map_iff in I as (c & <- & I). reflexivity.
  - intros m I. apply in_map_iff in I as (c & <- & I). simpl.
    eapply chunks_nonempty; [|exact I]. lia.
  - apply NoDup_map_keys_names.
    + intros c I. eapply chunks_nonempty; [|exact I]. lia.
    + rewrite chunks_concat by lia. eapply Permutation_NoDup; [|exact N].
      apply Permutation_map. now symmetry.
  - rewrite Epl. exact P.
Qed.

(** what [dump_kind] adds to an archive without members *)
Lemma dump_kind_ok on k (l : list (nat * item)) base :
  nfiles_ok -> NoDup (map fst l) ->
  (forall i, In i (map fst l) -> In i (map fst (payload (of_kind k base))) -> False) ->
  exists new, dump_kind nfiles on k l base = (base ++ new, None) /\
    (forall m, In m new -> fst m = k) /\ ne_members new /\
    Permutation (payload new) (if on then l else []).
Proof.
  intros NF N Hd. unfold dump_kind.
  destruct on; [destruct l as [|x l]|].
  - exists []. rewrite app_nil_r. repeat split; simpl; try tauto. intros m [].
    constructor.
  - destruct (split_ok k (x :: l) NF) as (ms & Es & Hk & Hne & Hnd & Hp); [discriminate|auto|].
    exists ms. rewrite Es. rewrite add_members_disjoint; auto.
    intros m m' I J E.
    apply (names_disjoint_keys ms (of_kind k base)) with (x := m') (y := m); auto.
    + intros i Ii Ij. apply (Hd i); auto.
      eapply Permutation_in; [|exact Ii]. apply Permutation_map, Hp.
    + apply of_kind_in. split; auto. apply (f_equal fst) in E. unfold m_name in E. simpl in E.
      rewrite E. auto.
  - exists []. rewrite app_nil_r. repeat split; simpl; try tauto. intros m [].
    constructor.
Qed.

(** ** extend *)

Definition agree_off (p : path) (f s : fs) : Prop := forall x, x <> p -> s x = f x.

Lemma remove_results_spec p (f : fs) ms r :
  f p = Some (Zip {| z_res := r; z_mem := ms |}) ->
  exists t f', remove_results (Some p) f = (t, f', inl tt) /\
    agree_off p f f' /\
    (r = None /\ t = [] /\ f' = f \/
     r <> None /\ t = [f'] /\
     f' p = match ms with [] => None | _ => Some (Zip {| z_res := None; z_mem := ms |}) end).
Proof.
  intros E. unfold remove_results, bind, get. rewrite E. simpl.
  destruct r as [rs|]; simpl.
  - eexists _, _. split; [reflexivity|]. split.
    + intros x N. apply upd_other. congruence.
    + right. split; [discriminate|]. split; [reflexivity|]. rewrite upd_same. destruct ms; reflexivity.
  - exists [], f. split; [reflexivity|]. split; [intros x _; reflexivity|]. left; auto.
Qed.

Definition has_members (f : fs) p (ms : list member) : Prop :=
  (f p = None /\ ms = []) \/ exists r, f p = Some (Zip {| z_res := r; z_mem := ms |}).

(** after removal: no results, same members; the trace only touches p *)
Lemma remove_results_members p (f : fs) ms :
  has_members f p ms ->
  exists t f', remove_results (Some p) f = (t, f', inl tt) /\ agree_off p f f' /\
    ((f' p = None /\ ms = []) \/ f' p = Some (Zip {| z_res := None; z_mem := ms |})) /\
    (t = [] \/ t = [f']).
Proof.
  intros [[E Em]|[r E]].
  - exists [], f. unfold remove_results, bind, get. rewrite E. simpl.
    split; auto. split; [intros x _; reflexivity|]. split; [left; auto|left; auto].
  - destruct (remove_results_spec p f ms r E) as (t & f' & Er & Ag & [(Hr & Ht & Hf)|(Hr & Ht & Hf)]).
    + exists t, f'. subst. split; [exact Er|]. split; [exact Ag|]. split; [right; exact E|left; auto].
    + exists t, f'. split; [exact Er|]. split; [exact Ag|]. split; [|right; auto].
      destruct ms; [left; auto|right; auto].
Qed.

(** The states extend passes through. *)
Definition extend_state (f : fs) p (ms : list member) (rows : list row) (zq : zip) (s : fs) : Prop :=
  agree_off p f s /\
  ( (s p = None /\ ms = []) \/ s p = Some Corrupt
    \/ s p = Some (Zip {| z_res := None; z_mem := ms |})
    \/ exists ms', s p = Some (Zip {| z_res := Some rows; z_mem := ms ++ ms' |}) /\
        (ms' = [] \/
           ms' = of_kind Configs (z_mem zq) ++ of_kind Histories (z_mem zq)) ).

Lemma agree_trans p (f g h : fs) : agree_off p f g -> agree_off p g h -> agree_off p f h.
Proof. intros A B x N. rewrite B, A; auto. Qed.

Lemma extend_ok (self other : bres) (f : fs) p q ms zq :
  b_file self = Some p -> b_confs self = [] -> b_hist self = [] ->
  has_members f p ms ->
  get_indices other <> [] ->
  (forall i, In i (get_indices other) -> In i (get_indices self) -> False) ->
  b_file other = Some q -> q <> p -> f q = Some (Zip zq) ->
  names_disjoint ms (z_mem zq) ->
  let rows := get_data_frame self ++ get_data_frame other in
  exists t f' self', extend nfiles self other true f = (t, f', inl self') /\
    agree_off p f f' /\
    f' p = Some (Zip {| z_res := Some rows;
                        z_mem := ms ++ of_kind Configs (z_mem zq)
                                    ++ of_kind Histories (z_mem zq) |}) /\
    get_data_frame self' = rows /\
    b_dicts self' = b_dicts self ++ get_result_dict (touch other) /\
    b_file self' = Some p /\ b_confs self' = [] /\ b_hist self' = [] /\
    Forall (extend_state f p ms rows zq) t.
Proof.
  intros Fp Cc Ch HM Ni Hd Fq Nqp Ezq Nd rows.
  unfold extend.
  destruct (get_indices other) as [|i0 is] eqn:Ei; [congruence|].
  rewrite (proj2 (overlapb_false _ _) Hd).
  set (self1 := {| b_dicts := _ |}).
  assert (G1 : get_data_frame self1 = rows).
  { unfold self1, get_data_frame at 1; simpl. fold rows.
    destruct (Nat.ltb_spec (length rows) (length (b_dicts self ++ get_result_dict (touch other)))); auto.
    exfalso. unfold rows in H0. rewrite !app_length in H0.
    generalize (dicts_le self), (result_dict_le other). lia. }
  rewrite Fp.
  destruct (remove_results_members p f ms HM) as (t1 & f1 & E1 & A1 & P1 & T1).
  unfold bind at 1. rewrite E1.
  assert (HM1 : has_members f1 p ms).
  { destruct P1 as [[P1 ->]|P1]; [left; auto|right; eauto]. }
  assert (St : forall s, agree_off p f s ->
             (s p = None /\ ms = []) \/ s p = Some (Zip {| z_res := None; z_mem := ms |}) ->
             extend_state f p ms rows zq s).
  { intros s A [P|P]; split; auto. }
  (* dump *)
  assert (ED : exists t2 f2 self2,
     dump nfiles self1 p true true true f1 = (t2, f2, inl self2) /\
     agree_off p f f2 /\ f2 p = Some (Zip {| z_res := Some rows; z_mem := ms |}) /\
     get_data_frame self2 = rows /\ b_dicts self2 = b_dicts self1 /\
     b_file self2 = Some p /\ b_confs self2 = [] /\ b_hist self2 = [] /\
     Forall (extend_state f p ms rows zq) t2).
  { unfold dump. unfold bind at 1, get at 1.
    replace (b_file self1) with (Some p) by (unfold self1; simpl; congruence).
    rewrite path_eqb_refl. simpl negb. cbn [andb].
    unfold bind at 1. unfold ret at 1. unfold bind at 1.
    destruct (remove_results_members p f1 ms HM1) as (t2 & f2 & E2 & A2 & P2 & T2).
    rewrite E2. unfold bind at 1, get at 1.
    assert (EB : (match f2 p with
                  | Some Corrupt => raise BadZipFile
                  | Some (Zip z) => ret (z_mem z)
                  | None => ret []
                  end : M (list member)) f2 = ([], f2, inl ms)).
    { destruct P2 as [[P2 ->]|P2]; rewrite P2; reflexivity. }
    unfold bind at 1. rewrite EB.
    assert (Ck : dump_kind nfiles true Configs (conf_items (b_confs self1)) ms = (ms, None)).
    { unfold self1; simpl. rewrite Cc. reflexivity. }
    assert (Hk : dump_kind nfiles true Histories (hist_items (b_hist self1)) ms = (ms, None)).
    { unfold self1; simpl. rewrite Ch. reflexivity. }
    rewrite Ck, Hk.
    unfold write_zip, bind, step, ret. simpl.
    eexists _, _, _. split; [reflexivity|].
    rewrite G1.
    assert (AU : forall (g : fs) x, agree_off p f g -> agree_off p f (upd g p x)).
    { intros g x A y Ny. rewrite upd_other by congruence. auto. }
    assert (A12 : agree_off p f f2) by (eapply agree_trans; eauto).
    repeat split.
    - apply AU, AU, A12.
    - apply upd_same.
    - unfold get_data_frame; simpl. fold (get_data_frame self1).
      unfold self1; simpl. rewrite app_length.
      unfold rows. destruct (Nat.ltb_spec (length (get_data_frame self ++ get_data_frame other))
           (length (b_dicts self) + length (get_result_dict (touch other)))); auto.
      exfalso. rewrite app_length in H0. generalize (dicts_le self), (result_dict_le other). lia.
    - exact Cc.
    - exact Ch.
    - apply Forall_app. split.
      + destruct T2 as [->| ->]; constructor; auto.
      + constructor; [|constructor; [|constructor]].
        * split; [apply AU, A12|]. right; left. apply upd_same.
        * split; [apply AU, AU, A12|]. do 3 right. exists []. rewrite app_nil_r.
          split; [apply upd_same|auto]. }
  destruct ED as (t2 & f2 & self2 & E2 & A2 & P2 & G2 & D2 & F2 & C2 & H2 & T2).
  unfold bind at 1. rewrite E2. rewrite Fq.
  unfold bind at 1, get at 1. rewrite (A2 q Nqp), Ezq, P2. cbn [z_mem z_res].
  unfold move_files. rewrite move_loop_disjoint by (now apply names_disjoint_of_kind).
  rewrite move_loop_disjoint.
  2:{ rewrite of_kind_app. rewrite (of_kind_other Histories (of_kind Configs (z_mem zq))).
      - rewrite app_nil_r. now apply names_disjoint_of_kind.
      - intros m I. apply of_kind_in in I as [_ ->]. discriminate. }
  unfold write_zip, bind, step, ret. simpl.
  eexists _, _, _. split; [reflexivity|].
  assert (AU : forall (g : fs) x, agree_off p f g -> agree_off p f (upd g p x)).
  { intros g x A y Ny. rewrite upd_other by congruence. auto. }
  repeat split; auto.
  - rewrite upd_same. now rewrite <- app_assoc.
  - rewrite !Forall_app. repeat split; auto.
    + destruct T1 as [->| ->]; constructor; auto.
    + constructor; [|constructor; [|constructor]].
      * split; [apply AU, A2|]. right; left. apply upd_same.
      * split; [apply AU, AU, A2|]. do 3 right. eexists. split; [rewrite upd_same; rewrite <- app_assoc; reflexivity|].
        right. reflexivity.
Qed.

Lemma extend_nothing (self other : bres) f :
  get_indices other = [] -> extend nfiles self other true f = ([], f, inl self).
Proof. intros E. unfold extend. rewrite E. reflexivity. Qed.

Lemma extend_overlap (self other : bres) fl f i :
  In i (get_indices other) -> In i (get_indices self) ->
  extend nfiles self other fl f = ([], f, inr ValueError).
Proof.
  intros I J. unfold extend. destruct (get_indices other) as [|a l] eqn:E; [destruct I|].
  rewrite (proj2 (overlapb_true _ _)); eauto.
Qed.

(** ** Running configurations *)

Variable exec : conf -> option (row * H).
Variable out : conf -> row * H.
Variable name : nat.
Variable history : bool.
Variable every : option nat.

Definition rows_of (cs : list conf) : list row := map (fun c => fst (out c)) cs.
Definition hists_of (cs : list conf) : list (nat * H) := map (fun c => (c_idx c, snd (out c))) cs.
Definition runs_ok (cs : list conf) : Prop :=
  forall c, In c cs -> exec c = Some (out c) /\ r_idx (fst (out c)) = c_idx c.

Lemma rows_app a b : rows_of (a ++ b) = rows_of a ++ rows_of b.
Proof. apply map_app. Qed.

Lemma rows_idx cs : runs_ok cs -> map r_idx (rows_of cs) = map c_idx cs.
Proof.
  intros R. unfold rows_of. rewrite map_map. apply map_ext_in. intros c I. apply R, I.
Qed.

Definition wf_zip (z : zip) (d : list row) : Prop :=
  z_res z = Some d /\ ne_members (z_mem z) /\
  incl (map fst (payload (z_mem z))) (map r_idx d).

Definition valid (s : fs) p (d : list row) : Prop :=
  (d = [] /\ s p = None) \/ exists z, s p = Some (Zip z) /\ wf_zip z d.

Definition bad (s : fs) p : Prop :=
  s p = Some Corrupt \/ exists z, s p = Some (Zip z) /\ z_res z = None.

(** The members of an archive hold exactly these configurations and, when kept,
    their histories. *)
Definition covers (ms : list member) (cs : list conf) : Prop :=
  Permutation (payload (of_kind Configs ms)) (conf_items cs) /\
  Permutation (payload (of_kind Histories ms)) (if history then hist_items (hists_of cs) else []).

Lemma payload_kinds (ms : list member) :
  Permutation (payload ms) (payload (of_kind Configs ms) ++ payload (of_kind Histories ms)).
Proof.
  induction ms as [|[k l] r IH]; simpl; auto.
  unfold payload in *. destruct k; simpl.
  - rewrite IH. now rewrite app_assoc.
  - rewrite IH. rewrite !app_assoc. apply Permutation_app_tail. apply Permutation_app_comm.
Qed.

Lemma conf_items_keys (cs : list conf) : map fst (conf_items (H:=H) cs) = map c_idx cs.
Proof. unfold conf_items. rewrite map_map. reflexivity. Qed.

Lemma hist_items_keys (hs : list (nat * H)) : map fst (hist_items (C:=C) hs) = map fst hs.
Proof. unfold hist_items. rewrite map_map. reflexivity. Qed.

Lemma hists_keys cs : map fst (hists_of cs) = map c_idx cs.
Proof. unfold hists_of. rewrite map_map. reflexivity. Qed.

Lemma covers_keys ms cs i :
  covers ms cs -> In i (map fst (payload ms)) -> In i (map c_idx cs).
Proof.
  intros [Pc Ph] I.
  eapply Permutation_in in I; [|apply Permutation_map, payload_kinds].
  rewrite map_app in I. apply in_app_iff in I as [I|I].
  - eapply Permutation_in in I; [|apply Permutation_map, Pc]. now rewrite conf_items_keys in I.
  - eapply Permutation_in in I; [|apply Permutation_map, Ph].
    destruct history; [|destruct I]. now rewrite hist_items_keys, hists_keys in I.
Qed.

Lemma covers_nil ms cs : covers ms cs -> ms = [] -> cs = [].
Proof.
  intros [Pc _] ->. simpl in Pc. apply Permutation_nil in Pc. destruct cs; auto. discriminate.
Qed.

Definition ck_ok (f : fs) (fl : list conf) : Prop :=
  (fl = [] /\ f (PCkpt name) = None) \/
  (fl <> [] /\ exists ms, f (PCkpt name) = Some (Zip {| z_res := Some (rows_of fl); z_mem := ms |})
     /\ ne_members ms /\ covers ms fl).

Definition ck_res (ck : bres) (fl : list conf) : Prop :=
  get_data_frame ck = rows_of fl /\ b_dicts ck = rows_of fl /\
  b_file ck = Some (PCkpt name) /\ b_confs ck = [] /\ b_hist ck = [].

Lemma ck_valid f fl : runs_ok fl -> ck_ok f fl -> valid f (PCkpt name) (rows_of fl).
Proof.
  intros R [[-> E]|[N (ms & E & Ne & Cv)]]; [left; auto|right].
  eexists; split; [exact E|]. repeat split; auto.
  intros i I. simpl in I. rewrite rows_idx by auto. eapply covers_keys; eauto.
Qed.

(** The states a run started in [f0] passes through. *)
Definition snap (f0 : fs) (cs : list conf) (s : fs) : Prop :=
  (forall x, x <> PCkpt name -> x <> PTmp name -> s x = f0 x) /\
  (bad s (PCkpt name) \/ bad s (PTmp name) \/
   exists fl pe rest, cs = fl ++ pe ++ rest /\ valid s (PTmp name) (rows_of pe) /\
     (valid s (PCkpt name) (rows_of fl) \/
      (pe <> [] /\ valid s (PCkpt name) (rows_of (fl ++ pe))))).

Lemma NoDup_keys_conf (cs : list conf) :
  NoDup (map c_idx cs) -> NoDup (map fst (conf_items (H:=H) cs)).
Proof. now rewrite conf_items_keys. Qed.

Lemma get_indices_df (b : bres) : get_data_frame b <> [] -> get_indices b = map r_idx (get_data_frame b).
Proof. unfold get_indices. destruct (get_data_frame b); congruence. Qed.

Lemma get_indices_nil (b : bres) : get_data_frame b = [] -> b_confs b = [] -> get_indices b = [].
Proof. unfold get_indices. intros -> ->. reflexivity. Qed.

Lemma flush_ok f0 cs (f : fs) (fl pe rest : list conf) ck :
  nfiles_ok -> runs_ok cs -> NoDup (map c_idx cs) -> cs = fl ++ pe ++ rest ->
  (forall x, x <> PCkpt name -> x <> PTmp name -> f x = f0 x) ->
  ck_ok f fl -> ck_res ck fl ->
  exists t f' ck', flush nfiles name history (rows_of pe) (hists_of pe) pe ck f = (t, f', inl ck') /\
    (forall x, x <> PCkpt name -> x <> PTmp name -> f' x = f0 x) /\
    ck_ok f' (fl ++ pe) /\ ck_res ck' (fl ++ pe) /\
    (exists z, f' (PTmp name) = Some (Zip z) /\ wf_zip z (rows_of pe)) /\
    Forall (snap f0 cs) t.
Proof.
  intros NF RO ND Ecs Ag CK (G & Dc & Fc & Cc & Hc).
  assert (ROfl : runs_ok fl) by (intros c I; apply RO; subst; apply in_or_app; auto).
  assert (ROpe : runs_ok pe) by (intros c I; apply RO; subst; rewrite !in_app_iff; auto).
  assert (ND3 := ND). rewrite Ecs, !map_app in ND3.
  apply NoDup_app_inv in ND3 as (NDfl & ND3 & Dis). apply NoDup_app_inv in ND3 as (NDpe & _ & _).
  assert (Disj : forall i, In i (map c_idx fl) -> In i (map c_idx pe) -> False).
  { intros i I J. eapply Dis; eauto. apply in_or_app; auto. }
  clear Dis.
  (* the dump of the pending results *)
  set (b0 := {| b_dicts := rows_of pe; b_df := None; b_confs := pe; b_hist := hists_of pe;
                b_file := Some (PTmp name) |}).
  destruct (dump_kind_ok true Configs (conf_items pe) [] NF (NoDup_keys_conf pe NDpe))
    as (n1 & E1 & K1 & N1 & P1); [simpl; tauto|].
  destruct (dump_kind_ok history Histories (hist_items (hists_of pe)) n1 NF)
    as (n2 & E2 & K2 & N2 & P2).
  { now rewrite hist_items_keys, hists_keys. }
  { rewrite of_kind_other; [simpl; tauto|]. intros m I. rewrite K1 by auto. discriminate. }
  set (zt := {| z_res := Some (rows_of pe); z_mem := n1 ++ n2 |}).
  set (f1 := upd (upd f (PTmp name) (Some Corrupt)) (PTmp name) (Some (Zip zt))).
  set (b1 := {| b_dicts := rows_of pe; b_df := Some (rows_of pe); b_confs := pe; b_hist := hists_of pe;
                b_file := Some (PTmp name) |}).
  assert (ED : dump nfiles b0 (PTmp name) true history false f =
     ([upd f (PTmp name) (Some Corrupt); f1], f1, inl b1)).
  { unfold dump. unfold bind at 1, get at 1.
    change (b_file b0) with (Some (PTmp name)). cbv beta iota. rewrite path_eqb_refl. cbn [negb andb].
    unfold bind at 1, ret at 1. unfold bind at 1, ret at 1.
    unfold bind at 1, get at 1. unfold bind at 1, ret at 1.
    change (b_confs b0) with pe. change (b_hist b0) with (hists_of pe).
    rewrite E1. rewrite app_nil_l. rewrite E2.
    unfold write_zip, bind, step, ret. reflexivity. }
  unfold flush. fold b0. unfold bind at 1. rewrite ED.
  assert (Kc : of_kind Configs (n1 ++ n2) = n1).
  { rewrite of_kind_app, (of_kind_same Configs n1) by auto.
    rewrite (of_kind_other Configs n2); [apply app_nil_r|].
    intros m I. rewrite K2 by auto. discriminate. }
  assert (Kh : of_kind Histories (n1 ++ n2) = n2).
  { rewrite of_kind_app, (of_kind_same Histories n2) by auto.
    rewrite (of_kind_other Histories n1); [reflexivity|].
    intros m I. rewrite K1 by auto. discriminate. }
  assert (Cvt : covers (n1 ++ n2) pe).
  { split; [rewrite Kc|rewrite Kh]; auto. }
  assert (Net : ne_members (n1 ++ n2)).
  { intros m I. apply in_app_iff in I as [I|I]; auto. }
  assert (Wt : wf_zip zt (rows_of pe)).
  { repeat split; auto. intros i I. rewrite rows_idx by auto. eapply covers_keys; eauto. }
  assert (F1t : f1 (PTmp name) = Some (Zip zt)) by apply upd_same.
  assert (F1o : forall x, x <> PTmp name -> f1 x = f x).
  { intros x N. unfold f1. rewrite !upd_other; congruence. }
  assert (S1 : snap f0 cs (upd f (PTmp name) (Some Corrupt))).
  { split.
    - intros x N1' N2'. rewrite upd_other; auto.
    - right; left; left. apply upd_same. }
  assert (CK1 : ck_ok f1 fl).
  { destruct CK as [[E F]|[E F]]; [left|right]; rewrite F1o by discriminate; auto. }
  assert (S2 : snap f0 cs f1).
  { split.
    - intros x Nx1 Nx2. rewrite F1o; auto.
    - right; right. exists fl, pe, rest. repeat split; auto.
      + right. eauto.
      + left. apply ck_valid; auto. }
  assert (G1 : get_data_frame b1 = rows_of pe).
  { unfold get_data_frame; simpl. now rewrite Nat.ltb_irrefl. }
  assert (Cpe : pe = [] \/ pe <> []) by (destruct pe; [left|right]; congruence).
  destruct Cpe as [Npe|Npe].
  { (* nothing to add *)
    rewrite extend_nothing.
    2:{ apply get_indices_nil; [rewrite G1|]; rewrite ?Npe; auto. }
    eexists _, _, _. split; [reflexivity|]. 
    replace (fl ++ pe) with fl by (rewrite Npe, app_nil_r; auto).
    split; [intros x Nx1 Nx2; rewrite F1o; auto|]. split; auto. split; [repeat split; auto|].
    split; [eexists; split; [exact F1t|exact Wt]|]. rewrite app_nil_r. auto. }
  assert (Nrow : rows_of pe <> []) by (destruct pe; [congruence|discriminate]).
  assert (HM : exists ms, has_members f1 (PCkpt name) ms /\ ne_members ms /\ covers ms fl).
  { destruct CK1 as [[-> E]|[_ (ms & E & Ne & Cv)]].
    - exists []. repeat split.
      + left; auto.
      + intros m [].
      + constructor.
      + destruct history; constructor.
    - exists ms. repeat split; auto; try apply Cv. right; eauto. }
  destruct HM as (ms & HM & Nms & Cvm).
  assert (Iself : forall i, In i (get_indices ck) -> In i (map c_idx fl)).
  { intros i I. unfold get_indices in I. rewrite G in I.
    destruct (rows_of fl) as [|r0 rs] eqn:Er.
    - rewrite Cc in I. destruct I.
    - rewrite <- Er in I. now rewrite rows_idx in I by auto. }
  assert (Iother : get_indices b1 = map c_idx pe).
  { rewrite get_indices_df by (rewrite G1; auto). rewrite G1. now apply rows_idx. }
  destruct (extend_ok ck b1 f1 (PCkpt name) (PTmp name) ms zt)
    as (t & f' & ck' & EE & A' & Fck & Gck & Dck & Bf & Bc & Bh & Tr); auto.
  { rewrite Iother. destruct pe; [congruence|discriminate]. }
  { intros i I J. rewrite Iother in I. apply (Disj i); auto. }
  { discriminate. }
  { intros x y Ix Iy E. assert (Nd := names_disjoint_keys ms (n1 ++ n2) Nms).
    refine (Nd _ x y Ix Iy E). intros i I J. apply (Disj i).
    - eapply covers_keys; eauto.
    - eapply covers_keys; eauto. }
  rewrite EE.
  assert (Crows : get_data_frame ck ++ get_data_frame b1 = rows_of (fl ++ pe)).
  { rewrite G, G1, rows_app. reflexivity. }
  simpl z_mem in Fck. rewrite Kc, Kh in Fck.
  assert (Cvf : covers (ms ++ n1 ++ n2) (fl ++ pe)).
  { destruct Cvm as [Pc Ph], Cvt as [Pc' Ph']. split.
    - rewrite of_kind_app, payload_app. unfold conf_items. rewrite map_app.
      apply Permutation_app; auto.
    - rewrite of_kind_app, payload_app. destruct history.
      + unfold hist_items, hists_of. rewrite !map_app. apply Permutation_app; auto.
      + now rewrite (Permutation_app Ph Ph'). }
  eexists _, _, _. split; [reflexivity|]. split; [|split; [|split; [|split]]].
  - intros x Nx1 Nx2. rewrite A' by auto. rewrite F1o; auto.
  - right. split.
    + intros E. apply app_eq_nil in E. tauto.
    + exists (ms ++ n1 ++ n2). rewrite <- Crows. split; [exact Fck|]. split; auto.
      intros m I. apply in_app_iff in I as [I|I]; auto.
  - repeat split; auto.
    + rewrite Gck, Crows; auto.
    + rewrite Dck, Dc. rewrite rows_app. f_equal.
      unfold get_result_dict, touch. cbn [b_dicts b_df]. rewrite G1. change (b_dicts b1) with (rows_of pe). destruct (rows_of pe); auto.
  - exists zt. split; auto. rewrite A' by discriminate. exact F1t.
  - simpl. constructor; [exact S1|]. constructor; [exact S2|].
    eapply Forall_impl; [|exact Tr]. intros s (As & Ss). split.
    + intros x Nx1 Nx2. rewrite As by auto. rewrite F1o; auto.
    + destruct Ss as [[E Em]|[E|[E|(ms' & E & Hms')]]].
      * right; right. exists fl, pe, rest. repeat split; auto.
        -- right. exists zt. split; auto. rewrite As by discriminate. auto.
        -- left. left. split; auto. rewrite (covers_nil ms fl); auto.
      * left; left; auto.
      * left; right. eexists; split; [exact E|reflexivity].
      * right; right. exists fl, pe, rest. repeat split; auto.
        -- right. exists zt. split; auto. rewrite As by discriminate. auto.
        -- right. split; auto. right. eexists; split; [exact E|]. rewrite Crows.
           simpl in Hms'. rewrite Kc, Kh in Hms'.
           assert (Cv2 : incl (map fst (payload (ms ++ ms'))) (map c_idx (fl ++ pe))).
           { intros i I. rewrite payload_app, map_app in I. rewrite map_app, in_app_iff.
             apply in_app_iff in I as [I|I].
             - left. eapply covers_keys; eauto.
             - right. destruct Hms' as [->| ->]; [destruct I|]. eapply covers_keys; eauto. }
           repeat split; auto.
           ++ intros m I. simpl in I. apply in_app_iff in I as [I|I]; auto.
              destruct Hms' as [->| ->]; [destruct I|auto].
           ++ simpl. rewrite rows_idx; auto.
              intros c I. apply in_app_iff in I as [I|I]; auto.
Qed.

Lemma dict_set_new {V} (d : list (nat * V)) k v :
  ~ In k (map fst d) -> dict_set d k v = d ++ [(k, v)].
Proof.
  induction d as [|[j w] r IH]; simpl; intros N; auto.
  destruct (Nat.eqb_spec j k); [tauto|]. f_equal. apply IH; tauto.
Qed.

(** a flush happened: the tmp file still holds the last flushed results *)
Definition flushed (f : fs) (fl : list conf) : Prop :=
  exists pre pe z, fl = pre ++ pe /\ pe <> [] /\
    f (PTmp name) = Some (Zip z) /\ wf_zip z (rows_of pe).

Lemma run_loop_ok f0 cs : nfiles_ok -> runs_ok cs -> NoDup (map c_idx cs) ->
  forall todo fl pe (f : fs) ck idx,
  cs = fl ++ pe ++ todo ->
  (forall x, x <> PCkpt name -> x <> PTmp name -> f x = f0 x) ->
  ck_ok f fl -> ck_res ck fl ->
  exists t f' ck' fl' pe',
    run_loop nfiles exec name history every todo idx (rows_of pe) (hists_of pe) pe ck f
      = (t, f', inl (rows_of pe', hists_of pe', pe', ck')) /\
    cs = fl' ++ pe' /\
    (forall x, x <> PCkpt name -> x <> PTmp name -> f' x = f0 x) /\
    ck_ok f' fl' /\ ck_res ck' fl' /\ Forall (snap f0 cs) t /\
    ((fl' = fl /\ f' = f /\ forall j, idx < j <= idx + length todo -> due every j = false)
     \/ flushed f' fl').
Proof.
  intros NF RO ND. induction todo as [|c todo IH]; intros fl pe f ck idx Ecs Ag CK CR.
  - simpl. exists [], f, ck, fl, pe. rewrite app_nil_r in Ecs. split; [reflexivity|].
    split; [exact Ecs|]. split; [exact Ag|]. split; [exact CK|]. split; [exact CR|].
    split; [constructor|]. left. repeat split. intros j Hj. lia.
  - cbn [run_loop]. destruct (RO c) as [Ee Ei]; [subst; rewrite !in_app_iff; simpl; auto|].
    rewrite Ee. destruct (out c) as [rw h] eqn:Eo.
    assert (Nk : ~ In (c_idx c) (map fst (hists_of pe))).
    { rewrite hists_keys. rewrite Ecs, !map_app in ND. apply NoDup_app_inv in ND as (_ & ND & _).
      apply NoDup_app_inv in ND as (_ & _ & Dd). intros I. eapply Dd; eauto. simpl; auto. }
    rewrite dict_set_new by auto.
    assert (Er : rows_of pe ++ [rw] = rows_of (pe ++ [c])).
    { rewrite rows_app. unfold rows_of at 3. simpl. now rewrite Eo. }
    assert (Eh : hists_of pe ++ [(c_idx c, h)] = hists_of (pe ++ [c])).
    { unfold hists_of. rewrite map_app. simpl. now rewrite Eo. }
    rewrite Er, Eh.
    assert (Ecs' : cs = fl ++ (pe ++ [c]) ++ todo) by (rewrite <- app_assoc; exact Ecs).
    destruct (due every (S idx)) eqn:Edue.
    + destruct (flush_ok f0 cs f fl (pe ++ [c]) todo ck NF RO ND Ecs' Ag CK CR)
        as (t1 & f1 & ck1 & E1 & A1 & CK1 & CR1 & (zt & Zt & Wt) & S1).
      unfold bind. rewrite E1.
      destruct (IH (fl ++ (pe ++ [c])) [] f1 ck1 (S idx)) as (t2 & f2 & ck2 & fl2 & pe2 & E2 & Ec2 & A2 & CK2 & CR2 & S2 & Q2); auto.
      { simpl. rewrite <- app_assoc. exact Ecs'. }
      change (rows_of []) with (@nil row) in E2. change (hists_of []) with (@nil (nat * H)) in E2.
      rewrite E2. exists (t1 ++ t2), f2, ck2, fl2, pe2. split; [reflexivity|].
      split; [exact Ec2|]. split; [exact A2|]. split; [exact CK2|]. split; [exact CR2|].
      split; [apply Forall_app; auto|]. right.
      destruct Q2 as [(-> & -> & _)|Q2]; auto.
      exists fl, (pe ++ [c]), zt. repeat split; auto; try apply Wt.
      intros E. apply app_eq_nil in E. destruct E; discriminate.
    + destruct (IH fl (pe ++ [c]) f ck (S idx)) as (t2 & f2 & ck2 & fl2 & pe2 & E2 & Ec2 & A2 & CK2 & CR2 & S2 & Q2); auto.
      exists t2, f2, ck2, fl2, pe2. repeat (split; auto); try apply CR2.
      destruct Q2 as [(Qa & Qb & Qc)|Q2]; auto. left. repeat split; auto.
      intros j Hj. simpl in Hj. destruct (Nat.eq_dec j (S idx)) as [->|Nj]; auto.
      apply Qc. lia.
Qed.

(** run up to the removal of the tmp file *)
Definition run_own (cs : list conf) : M bres :=
  bind (run_loop nfiles exec name history every cs 0 [] [] [] (fresh_result (PCkpt name)))
    (fun '(rows, hist, done, ck) =>
  bind (flush nfiles name history rows hist done ck) (fun ck =>
  bind (step (fun f => upd f (PTmp name) None)) (fun _ => ret ck))).

Lemma run_own_eq cs ex (f : fs) :
  run nfiles exec name history every cs ex f =
  bind (run_own cs) (fun ck => extend nfiles ck ex true) f.
Proof.
  unfold run, run_own, bind, ret.
  destruct (run_loop nfiles exec name history every cs 0 [] [] [] (fresh_result (PCkpt name)) f)
    as [[t f1] [[[[rows hist] done] ck]|e]]; [|reflexivity].
  destruct (flush nfiles name history rows hist done ck f1) as [[t2 f2] [ck2|e]]; [|reflexivity].
  unfold step. destruct (extend nfiles ck2 ex true (upd f2 (PTmp name) None)) as [[t3 f3] r].
  rewrite !app_nil_r, <- !app_assoc. reflexivity.
Qed.

Lemma run_own_ok cs (f : fs) :
  nfiles_ok -> runs_ok cs -> NoDup (map c_idx cs) -> f (PCkpt name) = None ->
  exists t f' ck', run_own cs f = (t, f', inl ck') /\
    (forall x, x <> PCkpt name -> x <> PTmp name -> f' x = f x) /\
    f' (PTmp name) = None /\
    ck_ok f' cs /\ ck_res ck' cs /\ Forall (snap f cs) t.
Proof.
  intros NF RO ND Fn.
  destruct (run_loop_ok f cs NF RO ND cs [] [] f (fresh_result (PCkpt name)) 0)
    as (t & f' & ck' & fl & pe & E & Ecs & Ag & CK & CR & Sn & _); auto.
  { left; auto. }
  { repeat split. }
  unfold run_own. unfold bind at 1.
  change (rows_of []) with (@nil row) in E. change (hists_of []) with (@nil (nat * H)) in E.
  rewrite E.
  destruct (flush_ok f cs f' fl pe [] ck' NF RO ND) as (t2 & f2 & ck2 & E2 & A2 & CK2 & CR2 & _ & Sn2); auto.
  { now rewrite app_nil_r. }
  unfold bind. rewrite E2. unfold step, ret.
  assert (Ao : forall x, x <> PTmp name -> upd f2 (PTmp name) None x = f2 x).
  { intros; apply upd_other; congruence. }
  assert (CK3 : ck_ok (upd f2 (PTmp name) None) cs).
  { rewrite Ecs. destruct CK2 as [[Ea Eb]|[Ea Eb]]; [left|right]; rewrite Ao by discriminate; auto. }
  eexists _, _, _. split; [reflexivity|]. repeat split.
  - intros x Nx1 Nx2. rewrite Ao by auto. auto.
  - apply upd_same.
  - exact CK3.
  - rewrite Ecs; apply CR2.
  - rewrite Ecs; apply CR2.
  - apply CR2.
  - apply CR2.
  - apply CR2.
  - apply Forall_app. split; auto. apply Forall_app. split; auto.
    constructor; [|constructor]. split.
    + intros x Nx1 Nx2. rewrite Ao by auto. auto.
    + right; right. exists cs, [], []. rewrite !app_nil_r. repeat split.
      * left. split; auto. apply upd_same.
      * left. apply ck_valid; auto.
Qed.

(** run with an existing result *)
Definition existing_ok (ex : bres) (f : fs) (cs : list conf) : Prop :=
  (get_data_frame ex = [] /\ b_confs ex = []) \/
  (get_data_frame ex <> [] /\ b_file ex = Some PMerged /\
   (exists z, f PMerged = Some (Zip z) /\ wf_zip z (get_data_frame ex)) /\
   (forall i, In i (map c_idx cs) -> In i (map r_idx (get_data_frame ex)) -> False)).

Lemma run_ok cs ex (f : fs) :
  nfiles_ok -> runs_ok cs -> NoDup (map c_idx cs) -> f (PCkpt name) = None ->
  existing_ok ex f cs ->
  exists t f' b, run nfiles exec name history every cs ex f = (t, f', inl b) /\
    get_data_frame b = rows_of cs ++ get_data_frame ex /\
    b_file b = Some (PCkpt name) /\ b_confs b = [] /\
    b_dicts b = rows_of cs ++ (match get_data_frame ex with
                               | [] => [] | _ => get_result_dict (touch ex) end) /\
    (forall x, x <> PCkpt name -> x <> PTmp name -> f' x = f x) /\
    f' (PTmp name) = None /\
    (cs = [] /\ get_data_frame ex = [] /\ f' (PCkpt name) = None \/
     exists ms, f' (PCkpt name) = Some (Zip {| z_res := Some (get_data_frame b); z_mem := ms |}) /\
       ne_members ms /\ incl (map fst (payload ms)) (map r_idx (get_data_frame b)) /\
       (get_data_frame ex = [] -> covers ms cs) /\
       (forall z, f PMerged = Some (Zip z) -> get_data_frame ex <> [] ->
          forall k, exists own, Permutation (payload (of_kind k ms)) (own ++ payload (of_kind k (z_mem z)))
            /\ Permutation own (match k with
                  | Configs => conf_items cs
                  | Histories => if history then hist_items (hists_of cs) else [] end))) /\
    (get_data_frame ex = [] -> Forall (snap f cs) t).
Proof.
  intros NF RO ND Fn EX.
  destruct (run_own_ok cs f NF RO ND Fn) as (t & f1 & ck & E & Ag & Tm & CK & CR & Sn).
  rewrite run_own_eq. unfold bind. rewrite E.
  destruct CR as (G & Dc & Fc & Cc & Hc).
  destruct EX as [[Ge Ce]|(Ge & Fe & (z & Fz & Wz) & Disj)].
  - rewrite extend_nothing by (apply get_indices_nil; auto).
    eexists _, _, _. split; [reflexivity|]. rewrite Ge, !app_nil_r. repeat (split; auto).
    destruct CK as [[Ea Eb]|[Ea (ms & Em & Ne & Cv)]]; [left; auto|right].
    exists ms. rewrite G. split; [exact Em|]. split; [exact Ne|]. split; [|split; [auto|congruence]].
    rewrite rows_idx by auto. intros i I. eapply covers_keys; eauto.
  - assert (HM : exists ms, has_members f1 (PCkpt name) ms /\ ne_members ms /\ covers ms cs).
    { destruct CK as [[Ea Eb]|[_ (ms & Em & Ne & Cv)]].
      - exists []. subst cs. split; [left; auto|]. split; [intros m []|]. split; [constructor|].
        destruct history; constructor.
      - exists ms. split; [right; eauto|auto]. }
    destruct HM as (ms & HM & Ne & Cv).
    assert (Fz1 : f1 PMerged = Some (Zip z)) by (rewrite Ag by discriminate; exact Fz).
    destruct Wz as (Wr & Wn & Wk).
    assert (Iex : get_indices ex = map r_idx (get_data_frame ex)) by (now apply get_indices_df).
    assert (Iself : forall i, In i (get_indices ck) -> In i (map c_idx cs)).
    { intros i I. unfold get_indices in I. rewrite G in I.
      destruct (rows_of cs) as [|r0 rs] eqn:Er.
      - rewrite Cc in I. destruct I.
      - rewrite <- Er in I. now rewrite rows_idx in I by auto. }
    destruct (extend_ok ck ex f1 (PCkpt name) PMerged ms z)
      as (t2 & f2 & b & EE & A2 & F2 & G2 & D2 & Bf & Bc & Bh & Tr); auto.
    { rewrite Iex. destruct (get_data_frame ex); [congruence|discriminate]. }
    { intros i I J. rewrite Iex in I. eapply Disj; eauto. }
    { discriminate. }
    { apply names_disjoint_keys; auto. intros i I J. apply (Disj i); auto.
      eapply covers_keys; eauto. }
    rewrite EE. eexists _, _, _. split; [reflexivity|].
    rewrite G2, G. split; auto. split; auto. split; auto.
    split. { rewrite D2, Dc. destruct (get_data_frame ex); [congruence|auto]. }
    split. { intros x Nx1 Nx2. rewrite A2 by auto. auto. }
    split. { rewrite A2 by discriminate. exact Tm. }
    split; [|congruence].
    right. eexists. rewrite F2, G. split; [reflexivity|]. split; [|split; [|split]].
    + intros m I. apply in_app_iff in I as [I|I]; auto.
      apply in_app_iff in I as [I|I]; apply of_kind_in in I as [I _]; auto.
    + intros i I. rewrite map_app, in_app_iff.
      rewrite payload_app, map_app in I. apply in_app_iff in I as [I|I].
      * left. rewrite rows_idx by auto. eapply covers_keys; eauto.
      * right. apply Wk. eapply Permutation_in; [|exact I].
        apply Permutation_map. rewrite payload_app. symmetry. apply payload_kinds.
    + congruence.
    + intros z' Ez' _ k. assert (z' = z) by congruence. subst z'.
      exists (payload (of_kind k ms)). split.
      * rewrite of_kind_app, payload_app. apply Permutation_app_head.
        rewrite of_kind_app. destruct k.
        -- rewrite (of_kind_same Configs (of_kind Configs _)) by (intros m I; now apply of_kind_in in I).
           rewrite (of_kind_other Configs (of_kind Histories _)), app_nil_r; auto.
           intros m I; apply of_kind_in in I as [_ ->]; discriminate.
        -- rewrite (of_kind_same Histories (of_kind Histories _)) by (intros m I; now apply of_kind_in in I).
           rewrite (of_kind_other Histories (of_kind Configs _)); auto.
           intros m I; apply of_kind_in in I as [_ ->]; discriminate.
      * destruct Cv as [Pc Ph]. destruct k; auto.
Qed.

End P.
