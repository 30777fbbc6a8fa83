(* A k-nearest query that meets the contract, and two concrete maps for C98-C100. *)
From Coq Require Import List NArith ZArith QArith Qminmax Bool Arith Lia Lqa Permutation Sorting.
From Verif Require Import Model_Map Model_Roadgraph Model_RoadSearch Model_Intersection Model_Corridor
  Spec_Roadgraph Model_MapQuery Spec_MapQuery.
Import ListNotations.
Local Open Scope Q_scope.

Fixpoint ins (p : qp) (e : entry) (l : list entry) : list entry :=
  match l with
  | [] => [e]
  | x :: r => if Qle_bool (entry_d2 p e) (entry_d2 p x) then e :: l else x :: ins p e r
  end.
Definition isort (p : qp) (l : list entry) : list entry := fold_right (ins p) [] l.
Definition knn (es : list entry) (f : xlane qp -> bool) (p : qp) (n : nat) : list entry :=
  firstn n (isort p (filter (fun e => f (snd e)) es)).

Fixpoint srt (p : qp) (l : list entry) : Prop :=
  match l with [] => True | x :: r => (forall y, In y r -> entry_d2 p x <= entry_d2 p y) /\ srt p r end.
Lemma ins_perm p e l : Permutation (e :: l) (ins p e l).
Proof.
  induction l as [|x r IH]; cbn; [auto|]. destruct (Qle_bool _ _); [auto|].
  eapply perm_trans; [apply perm_swap|]. now constructor.
Qed.
Lemma isort_perm p l : Permutation l (isort p l).
Proof. induction l as [|x r IH]; cbn; [auto|]. eapply perm_trans; [apply perm_skip, IH|apply ins_perm]. Qed.
Lemma ins_srt p e l : srt p l -> srt p (ins p e l).
Proof.
  induction l as [|x r IH]; cbn; [tauto|]. intros (A & B). destruct (Qle_bool (entry_d2 p e) (entry_d2 p x)) eqn:E.
  - apply Qle_bool_iff in E. cbn. split; auto. intros y [<-|I]; auto. eapply Qle_trans; eauto.
  - cbn. split; auto. intros y I. apply (Permutation_in _ (Permutation_sym (ins_perm p e r))) in I as [<-|I]; auto.
    destruct (Qlt_le_dec (entry_d2 p e) (entry_d2 p x)) as [H|H]; auto. exfalso.
    assert (Qle_bool (entry_d2 p e) (entry_d2 p x) = true) by (apply Qle_bool_iff; apply Qlt_le_weak; auto). congruence.
Qed.
Lemma isort_srt p l : srt p (isort p l).
Proof. induction l; cbn; [auto|]. now apply ins_srt. Qed.
Lemma srt_split p n l x y : srt p l -> In x (firstn n l) -> In y (skipn n l) -> entry_d2 p x <= entry_d2 p y.
Proof.
  revert l. induction n as [|n IH]; intros [|z r] S I J; cbn in *; try tauto.
  destruct S as (A & B). destruct I as [<-|I]; [|eauto]. apply A. rewrite <- (firstn_skipn n r). apply in_or_app. auto.
Qed.
Lemma knn_ok : nearest_ok knn.
Proof.
  intros es f p n Hn. set (l := filter (fun e => f (snd e)) es).
  exists (skipn n (isort p l)). unfold knn. fold l. split; [|split].
  - rewrite firstn_skipn. apply isort_perm.
  - rewrite firstn_length. f_equal. symmetry. apply Permutation_length, isort_perm.
  - intros x y. apply srt_split. apply isort_srt.
Qed.

(* one straight road, one lane each way: the reference line y = 0, the left lane up to y = 3 (oncoming), the
   right lane down to y = -6 *)
Definition ql (id : N) (pos : Z) t d (ln : list qp) : xlane qp := mkLane id pos t d 0 0 None ln.
Definition W1 := ql 1 0 (OTHERTYPE 0) FORWARD [(0, 0); (10, 0)].
Definition W2 := ql 2 (-1) DRIVING FORWARD [(0, -6); (10, -6)].
Definition W3 := ql 3 1 DRIVING BACKWARD [(0, 3); (10, 3)].
Definition secq (ls : list (xlane qp)) : section qp := map (fun l => (l_id l, l)) ls.
Definition two_way : xmap qp := mkMap [(1%N, mkRoad (1000000%N, false) (1000000%N, false) [secq [W1; W2; W3]])] [].

(* a U-shaped lane around (100, 0), (100, 100), and a road with twenty lanes between x = 180 and x = 200 *)
Definition U1 := ql 1 0 (OTHERTYPE 0) FORWARD [(0, 0); (100, 0); (100, 100); (0, 100)].
Definition U2 := ql 2 (-1) DRIVING FORWARD [(0, -4); (104, -4); (104, 104); (0, 104)].
Definition P0 := ql 3 0 (OTHERTYPE 0) FORWARD [(200, 0); (200, 100)].
Definition Pk (k : nat) := ql (3 + N.of_nat k) (Z.of_nat k) DRIVING BACKWARD
  [(200 - inject_Z (Z.of_nat k), 0); (200 - inject_Z (Z.of_nat k), 100)].
Definition u_turn : xmap qp :=
  mkMap [(1%N, mkRoad (1000000%N, false) (1000000%N, false) [secq [U1; U2]]);
         (2%N, mkRoad (1000000%N, false) (1000000%N, false) [secq (P0 :: map Pk (seq 1 20))])] [].

Fixpoint nd_keys (l : list N) : bool :=
  match l with [] => true | x :: r => negb (existsb (N.eqb x) r) && nd_keys r end.
Lemma nd_keys_ok l : nd_keys l = true -> NoDup l.
Proof.
  induction l as [|x r IH]; cbn; intros H; constructor; apply andb_true_iff in H as (A & B); auto.
  intros I. apply negb_true_iff in A. assert (existsb (N.eqb x) r = true); [|congruence].
  apply existsb_exists. exists x. split; auto. apply N.eqb_refl.
Qed.
Fixpoint nd_pos (l : list Z) : bool :=
  match l with [] => true | x :: r => negb (existsb (Z.eqb x) r) && nd_pos r end.
Lemma nd_pos_ok l : nd_pos l = true -> NoDup l.
Proof.
  induction l as [|x r IH]; cbn; intros H; constructor; apply andb_true_iff in H as (A & B); auto.
  intros I. apply negb_true_iff in A. assert (existsb (Z.eqb x) r = true); [|congruence].
  apply existsb_exists. exists x. split; auto. apply Z.eqb_refl.
Qed.
Fixpoint sortedb (l : list N) : bool :=
  match l with [] => true | x :: r => forallb (N.ltb x) r && sortedb r end.
Lemma sortedb_ok {V} (l : list (N * V)) : sortedb (map fst l) = true -> m_sorted l.
Proof.
  unfold m_sorted. induction l as [|x r IH]; intros H; constructor; cbn in H; apply andb_true_iff in H as (A & B); auto.
  apply Forall_forall. intros y I. rewrite forallb_forall in A. apply N.ltb_lt. apply A. now apply in_map.
Qed.
Definition map_okb {P} (m : xmap P) : bool :=
  sortedb (map fst (m_roads m)) &&
  forallb (fun kr => forallb (fun s => sortedb (map fst s) && forallb (fun kl => (fst kl =? l_id (snd kl))%N) s &&
                                        nd_pos (map (fun kl => l_pos (snd kl)) s)) (r_sections (snd kr))) (m_roads m) &&
  nd_keys (map (fun rl => l_id (snd rl)) (lanes_list m)).
Lemma map_okb_ok {P} (m : xmap P) : map_okb m = true -> map_ok m.
Proof.
  unfold map_okb. intros H. apply andb_true_iff in H as (H & H3). apply andb_true_iff in H as (H1 & H2).
  rewrite forallb_forall in H2.
  assert (K : forall r s, section_of m r s -> sortedb (map fst s) && forallb (fun kl => (fst kl =? l_id (snd kl))%N) s &&
                                        nd_pos (map (fun kl => l_pos (snd kl)) s) = true).
  { intros r s (rd & Hr & Hs). specialize (H2 _ Hr). cbn in H2. rewrite forallb_forall in H2. auto. }
  constructor.
  - now apply sortedb_ok.
  - intros r s S. specialize (K r s S). apply andb_true_iff in K as (K & _). apply andb_true_iff in K as (K & _). now apply sortedb_ok.
  - intros r s k l S I. specialize (K r s S). apply andb_true_iff in K as (K & _). apply andb_true_iff in K as (_ & K).
    rewrite forallb_forall in K. specialize (K _ I). cbn in K. now apply N.eqb_eq.
  - now apply nd_keys_ok.
  - intros r s S. specialize (K r s S). apply andb_true_iff in K as (_ & K). now apply nd_pos_ok.
Qed.
Lemma two_way_ok : map_ok two_way. Proof. apply map_okb_ok. vm_compute. reflexivity. Qed.
Lemma u_turn_ok : map_ok u_turn. Proof. apply map_okb_ok. vm_compute. reflexivity. Qed.
Definition two_way_iface : miface := match set_map two_way new_iface with Some mi => mi | None => new_iface end.
Lemma two_way_set : set_map two_way new_iface = Some two_way_iface. Proof. vm_compute. reflexivity. Qed.
Definition u_turn_iface : miface := match set_map u_turn new_iface with Some mi => mi | None => new_iface end.
Lemma u_turn_set : set_map u_turn new_iface = Some u_turn_iface. Proof. vm_compute. reflexivity. Qed.
