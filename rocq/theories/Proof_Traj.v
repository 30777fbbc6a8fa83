From Coq Require Import List NArith ZArith QArith Qabs Bool Arith Lia Sorted Lqa Setoid.
From Verif Require Import Model_World Model_Traj Spec_Traj.
Import ListNotations.

Lemma Qlt_bool_iff x y : Qlt_bool x y = true <-> x < y.
Proof.
  unfold Qlt_bool. rewrite negb_true_iff. split.
  - intros H. destruct (Qlt_le_dec x y) as [L|L]; [exact L|]. apply Qle_bool_iff in L. congruence.
  - intros H. destruct (Qle_bool y x) eqn:E; [|reflexivity]. apply Qle_bool_iff in E. exfalso. lra.
Qed.
Lemma Qlt_bool_false x y : Qlt_bool x y = false <-> y <= x.
Proof. unfold Qlt_bool. rewrite negb_false_iff. apply Qle_bool_iff. Qed.
Lemma Qle_bool_false x y : Qle_bool x y = false <-> y < x.
Proof. rewrite <- Qlt_bool_iff. unfold Qlt_bool. rewrite negb_true_iff. reflexivity. Qed.
Lemma Qeq_bool_false x y : Qeq_bool x y = false <-> ~ x == y.
Proof. rewrite <- Qeq_bool_iff. destruct (Qeq_bool x y); split; congruence. Qed.

Lemma lincomb_length a b p q n : length p = n -> length q = n -> length (lincomb a b p q) = n.
Proof. revert q n; induction p as [|x p IH]; intros [|y q] n; cbn; intros H1 H2; subst; try reflexivity; try discriminate. f_equal. apply IH; congruence. Qed.
Lemma lincomb_nth a b p q k x y : nth_error p k = Some x -> nth_error q k = Some y ->
  nth_error (lincomb a b p q) k = Some (a * x + b * y).
Proof.
  revert q k; induction p as [|x0 p IH]; intros [|y0 q] [|k]; cbn; intros H1 H2; try discriminate.
  - injection H1 as ->; injection H2 as ->; reflexivity.
  - apply IH; assumption.
Qed.

Lemma time_nth s : s <> [] -> nth_error s 0 = Some (time s).
Proof. destruct s; [congruence|reflexivity]. Qed.

Lemma on_line_time a b t s : a <> [] -> b <> [] -> ~ time b - time a == 0 -> on_line a b t s -> time s == t.
Proof.
  intros Ha Hb Hd [_ H]. destruct (H 0%nat _ _ (time_nth a Ha) (time_nth b Hb)) as (z & Hz & E).
  assert (time s = z) as ->. { destruct s; [discriminate|]. cbn in Hz. injection Hz as ->. reflexivity. }
  rewrite E. field. exact Hd.
Qed.

Lemma interpolate_on_line p0 p1 t s n : length p0 = n -> length p1 = n ->
  time p0 < time p1 -> time p0 <= t -> interpolate p0 p1 t = Some s -> on_line p0 p1 t s.
Proof.
  intros L0 L1 Hlt Ht. unfold interpolate. destruct (Qeq_bool (time p1 - time p0) 0) eqn:E; [discriminate|].
  intros Hs; injection Hs as <-. split; [rewrite (lincomb_length _ _ _ _ n); auto|].
  intros k x y Hx Hy. eexists. split; [apply lincomb_nth; eassumption|].
  rewrite (Qabs_pos ((t - time p0) / (time p1 - time p0))); [ring|]. apply Qle_shift_div_l; lra.
Qed.

Lemma interp_static_on_line a b t n : length a = n -> length b = n -> 
  on_line a b t (lincomb 1 ((t - time a) / (time b - time a)) a (lincomb 1 (-1) b a)).
Proof.
  intros La Lb. split; [rewrite (lincomb_length _ _ _ _ n); auto; apply lincomb_length; auto|].
  intros k x y Hx Hy. eexists. split; [apply lincomb_nth; [eassumption|apply lincomb_nth; eassumption]|]. ring.
Qed.

(* ---- execution ---- *)
Lemma executes_invalid l : forall e, em_status e = E_INVALID ->
  exists e', executes e l = Some e' /\ em_status e' = E_INVALID /\ em_state e' = em_state e.
Proof.
  induction l as [|[t tr] r IH]; intros e He; cbn; [eauto|].
  unfold execute_interp. rewrite He. destruct (IH (mkEM E_INVALID (em_state e) tr) eq_refl) as (e' & H1 & H2 & H3).
  eauto.
Qed.

Lemma within_iff tr t f l : hd_error tr = Some f -> last_opt tr = Some l ->
  (within_traj tr t = Some true <-> time f <= t + delta /\ t - delta <= time l) /\
  (within_traj tr t = Some false <-> t + delta < time f \/ time l < t - delta).
Proof.
  intros Hf Hl. unfold within_traj. rewrite Hf, Hl.
  destruct (Qlt_bool (t + delta) (time f)) eqn:E1; destruct (Qlt_bool (time l) (t - delta)) eqn:E2;
    cbn [orb negb]; rewrite ?Qlt_bool_iff, ?Qlt_bool_false in *;
    (split; split; intros H; try discriminate; try reflexivity; try lra; auto).
Qed.

Lemma sorted_nth tr i j a b : increasing tr -> (i < j)%nat ->
  nth_error tr i = Some a -> nth_error tr j = Some b -> time a < time b.
Proof.
  intros Hs. revert i j; induction Hs as [|x r Hr IH HF]; intros i j Hij Ha Hb; [destruct i; discriminate|].
  destruct i as [|i]; destruct j as [|j]; try lia; cbn in *.
  - injection Ha as ->. rewrite Forall_forall in HF. apply HF. eapply nth_error_In; eassumption.
  - eapply IH; [|eassumption|eassumption]. lia.
Qed.

Lemma find_hit t l i r : nth_error l i = Some r -> hits t r = true ->
  (forall r', In r' l -> hits t r' = true -> r' = r) -> find (hits t) l = Some r.
Proof.
  intros Hi Hh Hu. destruct (find (hits t) l) as [r'|] eqn:E.
  - apply find_some in E as [E1 E2]. f_equal. auto.
  - exfalso. pose proof (find_none _ _ E r (nth_error_In _ _ Hi)). congruence.
Qed.

Lemma last_opt_nth {A} (l : list A) x : last_opt l = Some x -> nth_error l (length l - 1) = Some x.
Proof.
  induction l as [|a [|b r] IH]; cbn; [discriminate|auto|].
  intros H. cbn in IH. rewrite Nat.sub_0_r in IH. exact (IH H).
Qed.
Lemma last_opt_some {A} (l : list A) : l <> [] -> exists x, last_opt l = Some x.
Proof. induction l as [|a [|b r] IH]; [congruence|intros _; exists a; reflexivity|]. intros _. apply IH; discriminate. Qed.

Lemma nth_error_skipn {A} (l : list A) n k : nth_error (skipn n l) k = nth_error l (n + k).
Proof. revert l; induction n as [|n IH]; intros l; [reflexivity|]. destruct l; cbn; [destruct k; reflexivity|apply IH]. Qed.

(* the half of the rows the exact search looks at *)
Definition searched (tr : traj) (t : Q) (i : nat) : Prop :=
  exists f l, hd_error tr = Some f /\ last_opt tr = Some l /\
  ((Qabs (t - time l) < Qabs (t - time f) /\ (length tr / 2 <= i)%nat) \/
   (Qabs (t - time f) <= Qabs (t - time l) /\ (i <= length tr / 2)%nat)).

Lemma exact_found tr t i r : nth_error tr i = Some r -> hits t r = true ->
  (forall r', In r' tr -> hits t r' = true -> r' = r) -> searched tr t i -> exact_row tr t = Some r.
Proof.
  intros Hi Hh Hu (f & l & Hf & Hl & Hs). unfold exact_row. rewrite Hf, Hl.
  destruct Hs as [[Hc Hs]|[Hc Hs]].
  - rewrite (proj2 (Qlt_bool_iff _ _) Hc).
    assert (Hin : In r (rev (skipn (length tr / 2) tr))).
    { apply -> in_rev. apply nth_error_In with (n := (i - length tr / 2)%nat).
      rewrite nth_error_skipn. replace (length tr / 2 + (i - length tr / 2))%nat with i by lia. exact Hi. }
    apply In_nth_error in Hin as [k Hk]. eapply find_hit; [exact Hk|exact Hh|].
    intros r' Hr'. apply Hu. apply in_rev in Hr'. rewrite <- (firstn_skipn (length tr / 2) tr). apply in_or_app; auto.
  - rewrite (proj2 (Qlt_bool_false _ _) Hc).
    eapply (find_hit t _ i); [|exact Hh|].
    + rewrite <- (firstn_skipn (length tr / 2 + 1) tr) in Hi.
      assert (Li : (i < length tr)%nat) by (apply nth_error_Some; rewrite <- (firstn_skipn (length tr / 2 + 1) tr); congruence).
      rewrite nth_error_app1 in Hi; [exact Hi|]. rewrite firstn_length. lia.
    + intros r' Hr'. apply Hu. rewrite <- (firstn_skipn (length tr / 2 + 1) tr). apply in_or_app; auto.
Qed.

Lemma exact_row_sound tr t r : exact_row tr t = Some r -> In r tr /\ Qabs (time r - t) < delta.
Proof.
  unfold exact_row. destruct (hd_error tr) as [f|]; [|discriminate]. destruct (last_opt tr) as [l|]; [|discriminate].
  destruct (Qlt_bool _ _); intros H; apply find_some in H as [H1 H2]; (split; [|apply Qlt_bool_iff, H2]).
  - apply in_rev in H1. rewrite <- (firstn_skipn (length tr / 2) tr). apply in_or_app; auto.
  - rewrite <- (firstn_skipn (length tr / 2 + 1) tr). apply in_or_app; auto.
Qed.

Lemma hits_iff t r : hits t r = true <-> time r - delta < t < time r + delta.
Proof. unfold hits. rewrite Qlt_bool_iff, Qabs_Qlt_condition. lra. Qed.

(* rows at least two windows apart: at most one is hit *)
Lemma hit_unique tr t i r r' : increasing tr ->
  (forall j a b, nth_error tr j = Some a -> nth_error tr (S j) = Some b -> time a + 2 * delta <= time b) ->
  nth_error tr i = Some r -> hits t r = true -> In r' tr -> hits t r' = true -> r' = r.
Proof.
  intros Hs Hgap Hi Hh Hin' Hh'. apply In_nth_error in Hin' as [j Hj].
  apply hits_iff in Hh, Hh'.
  assert (Hsep : forall i j a b, (i < j)%nat -> nth_error tr i = Some a -> nth_error tr j = Some b -> time a + 2 * delta <= time b).
  { intros i0 j0 a b Hij Ha Hb.
    destruct (nth_error tr (S i0)) as [c|] eqn:Ec.
    - pose proof (Hgap _ _ _ Ha Ec). destruct (Nat.eq_dec j0 (S i0)) as [->|Hne]; [congruence|].
      assert (time c < time b) by (eapply sorted_nth; [exact Hs| |exact Ec|exact Hb]; lia). lra.
    - apply nth_error_None in Ec. assert (j0 < length tr)%nat by (apply nth_error_Some; congruence). lia. }
  destruct (Nat.lt_trichotomy i j) as [L|[->|L]].
  - pose proof (Hsep _ _ _ _ L Hi Hj). exfalso; lra.
  - congruence.
  - pose proof (Hsep _ _ _ _ L Hj Hi). exfalso; lra.
Qed.

Lemma div2_bounds n : (2 * (n / 2) <= n < 2 * (n / 2) + 2)%nat.
Proof. pose proof (Nat.div_mod n 2 ltac:(lia)). pose proof (Nat.mod_upper_bound n 2 ltac:(lia)). lia. Qed.

Lemma uniform_searched tr t0 h t i r : uniform tr t0 h -> 2 * delta <= h ->
  nth_error tr i = Some r -> hits t r = true -> searched tr t i.
Proof.
  intros Hu Hh Hi Hhit. apply hits_iff in Hhit.
  assert (Hne : tr <> []) by (destruct tr; [destruct i; discriminate|discriminate]).
  destruct tr as [|f rest] eqn:Etr; [congruence|]. rewrite <- Etr in *. 
  destruct (last_opt_some tr) as [l Hl]; [congruence|].
  assert (Hf0 : nth_error tr 0 = Some f) by (rewrite Etr; reflexivity).
  pose proof (Hu _ _ Hf0) as Tf. pose proof (Hu _ _ (last_opt_nth _ _ Hl)) as Tl. pose proof (Hu _ _ Hi) as Ti.
  cbn [Z.of_nat] in Tf. change (inject_Z 0) with 0 in Tf.
  assert (Li : (i < length tr)%nat) by (apply nth_error_Some; congruence).
  pose proof (div2_bounds (length tr)) as Hdiv.
  set (n := length tr) in *. set (m := (n / 2)%nat) in *.
  assert (Hd : delta == 1 # 1000) by reflexivity.
  (* integers as rationals *)
  set (qi := inject_Z (Z.of_nat i)) in *. set (qn := inject_Z (Z.of_nat (n - 1))) in *.
  assert (Hpos : 0 < h) by lra.
  exists f, l. split; [rewrite Etr; reflexivity|]. split; [exact Hl|].
  destruct (Qlt_le_dec (Qabs (t - time l)) (Qabs (t - time f))) as [Hc|Hc]; [left|right]; (split; [exact Hc|]).
  - destruct (le_lt_dec m i) as [L|L]; [exact L|exfalso].
    assert (Hq : 2 * qi + 1 <= qn).
    { unfold qi, qn. change 2 with (inject_Z 2). change 1 with (inject_Z 1).
      rewrite <- inject_Z_mult, <- inject_Z_plus, <- Zle_Qle. lia. }
    assert (Hprod : (2 * qi + 1) * h <= qn * h) by (apply Qmult_le_compat_r; lra).
    apply Qabs_Qlt_condition in Hc.
    assert (E : Qabs (t - time f) <= qi * h + h / 2 ).
    { apply Qabs_Qle_condition. assert (0 <= qi * h).
      { apply Qmult_le_0_compat; [|lra]. unfold qi. change 0 with (inject_Z 0). rewrite <- Zle_Qle. lia. }
      assert (h / 2 == h * (1#2)) as -> by reflexivity. split; lra. }
    assert (h / 2 == h * (1#2)) as Eh by reflexivity. rewrite Eh in E. lra.
  - destruct (le_lt_dec i m) as [L|L]; [exact L|exfalso].
    assert (Hq : qn + 1 <= 2 * qi).
    { unfold qi, qn. change 2 with (inject_Z 2). change 1 with (inject_Z 1).
      rewrite <- inject_Z_mult, <- inject_Z_plus, <- Zle_Qle. lia. }
    assert (Hprod : (qn + 1) * h <= (2 * qi) * h) by (apply Qmult_le_compat_r; lra).
    assert (Hiq : qi <= qn).
    { unfold qi, qn. rewrite <- Zle_Qle. lia. }
    assert (Hprod2 : qi * h <= qn * h) by (apply Qmult_le_compat_r; lra).
    assert (Hq1 : 1 <= qi). { unfold qi. change 1 with (inject_Z 1). rewrite <- Zle_Qle. lia. }
    assert (Hprod3 : 1 * h <= qi * h) by (apply Qmult_le_compat_r; lra).
    rewrite (Qabs_pos (t - time f)) in Hc by lra.
    destruct (Qlt_le_dec t (time l)) as [L2|L2].
    + rewrite Qabs_neg in Hc by lra. lra.
    + rewrite Qabs_pos in Hc by lra. lra.
Qed.

Lemma uniform_increasing tr t0 h : uniform tr t0 h -> 0 < h -> increasing tr.
Proof.
  intros Hu Hh. revert t0 Hu; induction tr as [|r rest IH]; intros t0 Hu; [constructor|].
  constructor.
  - apply (IH (t0 + h)). intros i s Hs. rewrite (Hu (S i) s Hs). rewrite Nat2Z.inj_succ.
    unfold Z.succ. rewrite inject_Z_plus. change (inject_Z 1) with 1. ring.
  - apply Forall_forall. intros s Hs. apply In_nth_error in Hs as [i Hi].
    rewrite (Hu 0%nat r eq_refl), (Hu (S i) s Hi). apply Qplus_lt_r. apply Qmult_lt_compat_r; [exact Hh|].
    rewrite <- Zlt_Qlt. lia.
Qed.

(* ---- static trajectory ---- *)
Definition cnt_le (t : Q) (tr : traj) : nat := length (filter (fun r => Qle_bool (time r) t) tr).
Definition cnt_lt (t : Q) (tr : traj) : nat := length (filter (fun r => Qlt_bool (time r) t) tr).

Lemma filter_none {A} (f : A -> bool) l : (forall x, In x l -> f x = false) -> filter f l = [].
Proof. induction l as [|a r IH]; cbn; intros H; [reflexivity|]. rewrite (H a); auto. Qed.
Lemma filter_all {A} (f : A -> bool) l : (forall x, In x l -> f x = true) -> filter f l = l.
Proof. induction l as [|a r IH]; cbn; intros H; [reflexivity|]. rewrite (H a); auto. f_equal; auto. Qed.

Lemma skipn_cnt t tr : increasing tr -> skipn (cnt_le t tr) tr = filter (fun r => Qlt_bool t (time r)) tr.
Proof.
  intros Hs; induction Hs as [|a r Hr IH HF]; [reflexivity|]. unfold cnt_le in *. cbn.
  destruct (Qle_bool (time a) t) eqn:E.
  - apply Qle_bool_iff in E. rewrite (proj2 (Qlt_bool_false _ _) E). cbn. exact IH.
  - apply Qle_bool_false in E. rewrite (proj2 (Qlt_bool_iff _ _) E).
    rewrite Forall_forall in HF. rewrite filter_none.
    + cbn. f_equal. rewrite filter_all; [reflexivity|]. intros x Hx. apply Qlt_bool_iff. specialize (HF x Hx). lra.
    + intros x Hx. apply Qle_bool_false. specialize (HF x Hx). lra.
Qed.

Lemma firstn_skipn_cnt t t' tr : increasing tr -> t < t' ->
  firstn (cnt_lt t' tr - cnt_le t tr) (skipn (cnt_le t tr) tr) =
  filter (fun r => Qlt_bool t (time r) && Qlt_bool (time r) t') tr /\ (cnt_le t tr <= cnt_lt t' tr)%nat.
Proof.
  intros Hs Ht; induction Hs as [|a r Hr IH HF]; [split; reflexivity|]. unfold cnt_le, cnt_lt in *. cbn.
  rewrite Forall_forall in HF. destruct IH as [IH1 IH2].
  destruct (Qle_bool (time a) t) eqn:E.
  - apply Qle_bool_iff in E. rewrite (proj2 (Qlt_bool_false _ _) E). rewrite (proj2 (Qlt_bool_iff (time a) t')) by lra.
    cbn. split; [exact IH1|lia].
  - apply Qle_bool_false in E. rewrite (proj2 (Qlt_bool_iff t (time a))) by lra. cbn [andb].
    assert (Ez : filter (fun r0 => Qle_bool (time r0) t) r = []).
    { apply filter_none. intros x Hx. apply Qle_bool_false. specialize (HF x Hx). lra. }
    rewrite Ez in *. cbn [length skipn] in *. rewrite Nat.sub_0_r in *.
    destruct (Qlt_bool (time a) t') eqn:E2; cbn.
    + split; [|lia]. f_equal. exact IH1.
    + apply Qlt_bool_false in E2. rewrite filter_none.
      * cbn. split; [|lia]. symmetry. apply filter_none. intros x Hx. apply andb_false_iff. right.
        apply Qlt_bool_false. specialize (HF x Hx). lra.
      * intros x Hx. apply Qlt_bool_false. specialize (HF x Hx). lra.
Qed.

(* the first segment containing t *)
Lemma find_seg_spec tr t i : increasing tr ->
  forall a0 rest, tr = a0 :: rest -> time a0 <= t ->
  match find_seg tr t i with
  | Some (j, a, b) =>
      consecutive tr a b /\ time a <= t <= time b /\
      ((j = i /\ time a == t /\ time a0 == t) \/ (time a < t /\ j = (i + Z.of_nat (cnt_lt t tr) - 1)%Z))
  | None => forall r, In r tr -> time r < t \/ rest = []
  end.
Proof.
  intros Hs. revert i. induction Hs as [|a r Hr IH HF]; intros i a0 rest Heq Hle; [discriminate|].
  injection Heq as -> ->. destruct rest as [|b rest]; [cbn; intros; now right|].
  change (find_seg (a0 :: b :: rest) t i) with
    (if Qle_bool (time a0) t && Qle_bool t (time b) then Some (i, a0, b) else find_seg (b :: rest) t (i + 1)%Z).
  rewrite Forall_forall in HF. pose proof (HF b (or_introl eq_refl)) as Hab.
  rewrite (proj2 (Qle_bool_iff (time a0) t) Hle). cbn [andb].
  destruct (Qle_bool t (time b)) eqn:Eb.
  - apply Qle_bool_iff in Eb. split; [exists [], rest; reflexivity|]. split; [split; assumption|].
    destruct (Qlt_le_dec (time a0) t) as [L|L].
    + right. split; [exact L|]. unfold cnt_lt. cbn [filter]. rewrite (proj2 (Qlt_bool_iff (time a0) t) L).
      rewrite (proj2 (Qlt_bool_false (time b) t) Eb). rewrite filter_none; [cbn; lia|].
      intros x Hx. apply Qlt_bool_false. inversion Hr as [|? ? _ HFb]; subst. rewrite Forall_forall in HFb.
      specialize (HFb x Hx). lra.
    + left. split; [reflexivity|]. split; lra.
  - apply Qle_bool_false in Eb. specialize (IH (i + 1)%Z b rest eq_refl ltac:(lra)).
    destruct (find_seg (b :: rest) t (i + 1)%Z) as [[[j x] y]|].
    + destruct IH as ((l1 & l2 & El) & Hxy & Hj). split; [exists (a0 :: l1), l2; rewrite El; reflexivity|].
      split; [exact Hxy|]. right. destruct Hj as [(-> & E1 & E2)|(L & ->)]; [exfalso; lra|].
      split; [exact L|]. unfold cnt_lt. cbn [filter]. rewrite (proj2 (Qlt_bool_iff (time a0) t)) by lra.
      cbn [length]. lia.
    + intros x [<-|Hx]; [left; lra|]. destruct (IH x Hx) as [L|L]; [now left|].
      subst rest. destruct Hx as [<-|[]]. left; exact Eb.
Qed.

Lemma cnt_lt_le t tr : increasing tr -> (forall r, In r tr -> ~ time r == t) -> cnt_lt t tr = cnt_le t tr.
Proof.
  intros Hs Hn. unfold cnt_lt, cnt_le. f_equal. apply filter_ext_in. intros r Hr.
  specialize (Hn r Hr). destruct (Qle_bool (time r) t) eqn:E.
  - apply Qle_bool_iff in E. apply Qlt_bool_iff. destruct (Qlt_le_dec (time r) t); [assumption|]. exfalso. apply Hn. lra.
  - apply Qle_bool_false in E. apply Qlt_bool_false. lra.
Qed.

Lemma cnt_app t l1 l2 : cnt_le t (l1 ++ l2) = (cnt_le t l1 + cnt_le t l2)%nat /\ cnt_lt t (l1 ++ l2) = (cnt_lt t l1 + cnt_lt t l2)%nat.
Proof. unfold cnt_le, cnt_lt. rewrite !filter_app, !app_length. auto. Qed.

Lemma cnt_le_hit t tr r : increasing tr -> In r tr -> time r == t -> cnt_le t tr = S (cnt_lt t tr).
Proof.
  intros Hs Hin Ht. induction Hs as [|a l Hl IH HF]; [destruct Hin|].
  rewrite Forall_forall in HF. unfold cnt_le, cnt_lt in *. cbn. destruct Hin as [->|Hin].
  - rewrite (proj2 (Qle_bool_iff (time r) t)) by lra. rewrite (proj2 (Qlt_bool_false (time r) t)) by lra. cbn. f_equal.
    rewrite !filter_none; [reflexivity| |].
    + intros x Hx. apply Qlt_bool_false. specialize (HF x Hx). lra.
    + intros x Hx. apply Qle_bool_false. specialize (HF x Hx). lra.
  - specialize (HF r Hin). rewrite (proj2 (Qle_bool_iff (time a) t)) by lra.
    rewrite (proj2 (Qlt_bool_iff (time a) t)) by lra. cbn. f_equal. auto.
Qed.

Lemma increasing_consecutive tr a b : increasing tr -> consecutive tr a b -> time a < time b.
Proof.
  intros Hs (l & r & ->). eapply (sorted_nth _ (length l) (S (length l))); [exact Hs|lia| |].
  - rewrite nth_error_app2, Nat.sub_diag by lia. reflexivity.
  - rewrite nth_error_app2 by lia. replace (S (length l) - length l)%nat with 1%nat by lia. reflexivity.
Qed.

Lemma interp_static_spec tr t n : increasing tr -> rectangular n tr -> (2 <= length tr)%nat ->
  (exists f l, hd_error tr = Some f /\ last_opt tr = Some l /\ time f <= t <= time l) ->
  exists a b s i j, consecutive tr a b /\ time a <= t <= time b /\ on_line a b t s /\
    interp_static tr t = SegOk s i j /\ j = Z.of_nat (cnt_le t tr) /\ i = (Z.of_nat (cnt_lt t tr) - 1)%Z.
Proof.
  intros Hs [Hn Hrect] Hlen (f & l & Hf & Hl & Hft & Htl).
  destruct tr as [|a0 rest] eqn:Etr; [discriminate|]. injection Hf as ->. rewrite <- Etr in *.
  pose proof (find_seg_spec tr t 0 Hs f rest Etr Hft) as Hseg.
  unfold interp_static. destruct (length tr <? 2)%nat eqn:El; [apply Nat.ltb_lt in El; lia|].
  destruct (find_seg tr t 0) as [[[j a] b]|].
  2:{ exfalso. assert (Hin : In l tr). { apply last_opt_nth in Hl. eapply nth_error_In; exact Hl. }
      destruct (Hseg l Hin) as [L|L]; [lra|]. rewrite Etr, L in Hlen. cbn in Hlen. lia. }
  destruct Hseg as (Hc & Hab & Hj). pose proof (increasing_consecutive _ _ _ Hs Hc) as Hlt.
  rewrite (proj2 (Qeq_bool_false (time b - time a) 0)) by lra.
  assert (La : length a = n /\ length b = n).
  { destruct Hc as (l1 & l2 & E). rewrite E in Hrect. apply Forall_app in Hrect as [_ Hrect].
    inversion Hrect as [|? ? H1 H2]; subst. inversion H2; subst. auto. }
  assert (Hina : In a tr /\ In b tr).
  { destruct Hc as (l1 & l2 & E). rewrite E. split; apply in_or_app; right; cbn; auto. }
  pose proof (interp_static_on_line a b t n (proj1 La) (proj2 La)) as Hon.
  exists a, b, (lincomb 1 ((t - time a) / (time b - time a)) a (lincomb 1 (-1) b a)).
  destruct Hj as [(-> & Ea & Ef)|(La2 & ->)].
  - exists (-1)%Z, 1%Z. split; [exact Hc|]. split; [exact Hab|]. split; [exact Hon|].
    assert (Ez : (t - time a) / (time b - time a) == 0).
    { assert (t - time a == 0) as -> by lra. unfold Qdiv. ring. }
    rewrite (proj2 (Qeq_bool_iff _ _) Ez). split; [reflexivity|].
    assert (Hlt0 : cnt_lt t tr = 0%nat).
    { unfold cnt_lt. rewrite filter_none; [reflexivity|]. intros x Hx. apply Qlt_bool_false.
      rewrite Etr in Hx, Hs. destruct Hx as [<-|Hx]; [lra|]. inversion Hs as [|? ? _ HF]; subst.
      rewrite Forall_forall in HF. specialize (HF x Hx). lra. }
    rewrite (cnt_le_hit t tr a Hs (proj1 Hina) Ea), Hlt0. split; reflexivity.
  - assert (Ez : Qeq_bool ((t - time a) / (time b - time a)) 0 = false).
    { apply Qeq_bool_false. intros E. assert (t - time a == 0); [|lra].
      transitivity ((t - time a) / (time b - time a) * (time b - time a)); [field; lra|]. rewrite E. ring. }
    rewrite Ez. destruct (Qeq_bool ((t - time a) / (time b - time a)) 1) eqn:E1.
    + apply Qeq_bool_iff in E1. assert (Eb : time b == t).
      { assert (t - time a == time b - time a); [|lra].
        transitivity ((t - time a) / (time b - time a) * (time b - time a)); [field; lra|]. rewrite E1. ring. }
      eexists. eexists. split; [exact Hc|]. split; [exact Hab|]. split; [exact Hon|]. split; [reflexivity|].
      rewrite (cnt_le_hit t tr b Hs (proj2 Hina) Eb). split; lia.
    + apply Qeq_bool_false in E1. eexists. eexists. split; [exact Hc|]. split; [exact Hab|]. split; [exact Hon|].
      split; [reflexivity|]. split; [|lia].
      assert (Hne : ~ time b == t).
      { intros Eb. apply E1. assert (t - time a == time b - time a) as -> by lra. field. lra. }
      rewrite <- (cnt_lt_le t tr Hs); [lia|].
      intros r Hr Et. destruct Hc as (l1 & l2 & El2).
      apply In_nth_error in Hr as [k Hk].
      assert (Ka : nth_error tr (length l1) = Some a) by (rewrite El2, nth_error_app2, Nat.sub_diag by lia; reflexivity).
      assert (Kb : nth_error tr (S (length l1)) = Some b).
      { rewrite El2, nth_error_app2 by lia. replace (S (length l1) - length l1)%nat with 1%nat by lia. reflexivity. }
      destruct (le_lt_dec k (length l1)) as [L|L].
      * destruct (Nat.eq_dec k (length l1)) as [->|Hk']; [rewrite Ka in Hk; injection Hk as <-; lra|].
        assert (time r < time a) by (eapply (sorted_nth _ k (length l1)); [exact Hs|lia|exact Hk|exact Ka]). lra.
      * destruct (Nat.eq_dec k (S (length l1))) as [->|Hk']; [rewrite Kb in Hk; injection Hk as <-; lra|].
        assert (time b < time r) by (eapply (sorted_nth _ (S (length l1)) k); [exact Hs|lia|exact Kb|exact Hk]). lra.
Qed.

Lemma min_max_spec tr : tr <> [] -> exists mn mx, min_time tr = Some mn /\ max_time tr = Some mx /\
  (exists r, In r tr /\ time r == mn) /\ (exists r, In r tr /\ time r == mx) /\
  (forall r, In r tr -> mn <= time r <= mx).
Proof.
  destruct tr as [|r0 l]; [congruence|intros _]. cbn [min_time max_time].
  assert (Hmin : forall l m, (fold_left (fun m s => qmin m (time s)) l m == m \/
             exists r, In r l /\ time r == fold_left (fun m s => qmin m (time s)) l m) /\
             fold_left (fun m s => qmin m (time s)) l m <= m /\
             forall r, In r l -> fold_left (fun m s => qmin m (time s)) l m <= time r).
  { clear. induction l as [|s l IH]; intros m; cbn; [repeat split; [left; reflexivity|lra|contradiction]|].
    destruct (IH (qmin m (time s))) as (H1 & H2 & H3).
    assert (Hq : (qmin m (time s) == m \/ qmin m (time s) == time s) /\ qmin m (time s) <= m /\ qmin m (time s) <= time s).
    { unfold qmin. destruct (Qle_bool m (time s)) eqn:E; [apply Qle_bool_iff in E|apply Qle_bool_false in E];
        (split; [|split; lra]); [left|right]; reflexivity. }
    split; [|split].
    - destruct H1 as [H1|(r & Hr & Er)]; [|right; eauto].
      destruct Hq as [[Hq|Hq] _]; [left; lra|right; exists s; split; [auto|lra]].
    - lra.
    - intros r [<-|Hr]; [lra|auto]. }
  assert (Hmax : forall l m, (fold_left (fun m s => qmax m (time s)) l m == m \/
             exists r, In r l /\ time r == fold_left (fun m s => qmax m (time s)) l m) /\
             m <= fold_left (fun m s => qmax m (time s)) l m /\
             forall r, In r l -> time r <= fold_left (fun m s => qmax m (time s)) l m).
  { clear. induction l as [|s l IH]; intros m; cbn; [repeat split; [left; reflexivity|lra|contradiction]|].
    destruct (IH (qmax m (time s))) as (H1 & H2 & H3).
    assert (Hq : (qmax m (time s) == m \/ qmax m (time s) == time s) /\ m <= qmax m (time s) /\ time s <= qmax m (time s)).
    { unfold qmax. destruct (Qle_bool m (time s)) eqn:E; [apply Qle_bool_iff in E|apply Qle_bool_false in E];
        (split; [|split; lra]); [right|left]; reflexivity. }
    split; [|split].
    - destruct H1 as [H1|(r & Hr & Er)]; [|right; eauto].
      destruct Hq as [[Hq|Hq] _]; [left; lra|right; exists s; split; [auto|lra]].
    - lra.
    - intros r [<-|Hr]; [lra|auto]. }
  destruct (Hmin l (time r0)) as (A1 & A2 & A3). destruct (Hmax l (time r0)) as (B1 & B2 & B3).
  eexists. eexists. split; [reflexivity|]. split; [reflexivity|]. split; [|split].
  - destruct A1 as [A1|(r & Hr & Er)]; [exists r0; split; [now left|lra]|exists r; split; [now right|exact Er]].
  - destruct B1 as [B1|(r & Hr & Er)]; [exists r0; split; [now left|lra]|exists r; split; [now right|exact Er]].
  - intros r [<-|Hr]; [split; assumption|]. split; auto.
Qed.
