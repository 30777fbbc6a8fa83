(** Names and access paths of the Python parameter server. *)

From Coq Require Import String Ascii List Arith Lia Bool QArith ZArith.
Import ListNotations.
From Verif Require Import Model_BenchRun Proof_BenchRun Model_Params Model_PyParams Spec_PyParams.
Local Open Scope string_scope.
Local Open Scope nat_scope.
Local Open Scope list_scope.

(* ---- names ---- *)
Lemma split_first_none : forall s, has_colon s = false -> split_first s = None.
Proof.
  induction s as [|a s IH]; intros H; [reflexivity|]. cbn in H. apply orb_false_iff in H as [H1 H2].
  destruct s as [|b s]; [reflexivity|]. cbn [split_first]. rewrite H1. cbn [andb].
  specialize (IH H2). cbn [split_first] in IH |- *. rewrite IH. reflexivity.
Qed.
Lemma split_first_cons a b s : Ascii.eqb a ":" = false ->
  split_first (String a (String b s)) = match split_first (String b s) with Some (c, r) => Some (String a c, r) | None => None end.
Proof. intros H. cbn [split_first]. rewrite H. reflexivity. Qed.
Lemma split_first_app : forall c r, has_colon c = false -> split_first (c ++ "::" ++ r)%string = Some (c, r).
Proof.
  induction c as [|a c IH]; intros r H; [reflexivity|]. cbn in H. apply orb_false_iff in H as [H1 H2].
  specialize (IH r H2). remember ("::" ++ r)%string as t eqn:Et. cbn [String.append].
  destruct (c ++ t)%string as [|b s] eqn:E.
  - subst t. destruct c; discriminate.
  - rewrite split_first_cons by assumption. rewrite IH. reflexivity.
Qed.
Lemma rsplit_none : forall s, has_colon s = false -> rsplit s = None.
Proof.
  induction s as [|a s IH]; intros H; [reflexivity|]. cbn in H. apply orb_false_iff in H as [H1 H2].
  cbn [rsplit]. rewrite IH by assumption. destruct s; [reflexivity|]. rewrite H1. reflexivity.
Qed.
Lemma rsplit_app : forall p k, has_colon k = false -> rsplit (p ++ "::" ++ k)%string = Some (p, k).
Proof.
  induction p as [|a p IH]; intros k H.
  - cbn [String.append rsplit]. rewrite rsplit_none by assumption.
    destruct k as [|b k]; [reflexivity|]. cbn in H. apply orb_false_iff in H as [H1 H2]. rewrite H1. reflexivity.
  - cbn [String.append rsplit]. cbn [String.append] in IH. rewrite IH by assumption. reflexivity.
Qed.

Definition cleans (ks : list string) := Forall clean ks.

Lemma str_app_assoc (a b c : string) : ((a ++ b) ++ c = a ++ (b ++ c))%string.
Proof. induction a; cbn; [reflexivity|now rewrite IHa]. Qed.
Lemma join_snoc : forall ks k, ks <> [] -> join (ks ++ [k]) = (join ks ++ "::" ++ k)%string.
Proof.
  induction ks as [|a ks IH]; intros k H; [congruence|]. destruct ks as [|b ks]; [reflexivity|].
  change ((a :: b :: ks) ++ [k]) with (a :: (b :: ks) ++ [k]).
  change (join (a :: (b :: ks) ++ [k])) with (a ++ "::" ++ join ((b :: ks) ++ [k]))%string.
  change (join (a :: b :: ks)) with (a ++ "::" ++ join (b :: ks))%string.
  rewrite IH by discriminate. now rewrite !str_app_assoc.
Qed.
Lemma join_nonempty k ks : clean k -> join (k :: ks) <> EmptyString.
Proof.
  intros (N & _) E. destruct ks; cbn in E; [auto|]. destruct k; [congruence|discriminate].
Qed.
Lemma rsplit_join ks k : cleans (ks ++ [k]) -> ks <> [] -> rsplit (join (ks ++ [k])) = Some (join ks, k).
Proof.
  intros C N. rewrite join_snoc by assumption. apply rsplit_app. apply Forall_app in C as [_ C]. now inversion C as [|? ? (_ & H & _) _].
Qed.
Lemma rsplit_single k : clean k -> rsplit k = None.
Proof. intros (_ & H & _). now apply rsplit_none. Qed.

Lemma length_app (a b : string) : String.length (a ++ b) = String.length a + String.length b.
Proof. induction a; cbn; [reflexivity|]. now rewrite IHa. Qed.

Lemma split_all_join : forall ks fuel, ks <> [] -> cleans ks -> length ks <= S fuel -> split_all fuel (join ks) = ks.
Proof.
  induction ks as [|k ks IH]; intros fuel N C L; [congruence|]. inversion C as [|? ? (C1 & C2 & C3) C4]; subst.
  destruct ks as [|k2 ks].
  - cbn [join]. destruct fuel; cbn; [reflexivity|]. rewrite split_first_none by assumption. reflexivity.
  - cbn [length] in L. destruct fuel as [|fuel]; [cbn in L; lia|].
    change (join (k :: k2 :: ks)) with (k ++ "::" ++ join (k2 :: ks))%string. cbn [split_all].
    rewrite split_first_app by assumption. f_equal. apply IH; [discriminate|assumption|cbn; lia].
Qed.
Lemma join_length : forall ks, cleans ks -> length ks <= S (String.length (join ks)).
Proof.
  induction ks as [|k ks IH]; intros C; [cbn; lia|]. inversion C as [|? ? (C1 & C2 & C3) C4]; subst.
  destruct ks as [|k2 ks]; [cbn; lia|]. change (join (k :: k2 :: ks)) with (k ++ "::" ++ join (k2 :: ks))%string.
  rewrite !length_app. specialize (IH C4). change (String.length "::") with 2. cbn [length] in *. lia.
Qed.
Lemma hierarchy_join ks : ks <> [] -> cleans ks -> hierarchy_of (join ks) = ks.
Proof.
  intros N C. unfold hierarchy_of. rewrite split_all_join; [|assumption|assumption|now apply join_length].
  clear N. induction C as [|k ks (C1 & C2 & C3) C4 IH]; cbn; [reflexivity|]. now rewrite C3, IH.
Qed.

(* ---- heap cells ---- *)
Lemma set_nth_same {A} : forall (l : list A) i x, i < length l -> nth_error (set_nth l i x) i = Some x.
Proof. induction l as [|y l IH]; intros [|i] x H; cbn in *; try lia; auto. apply IH. lia. Qed.
Lemma set_nth_other {A} : forall (l : list A) i j x, i <> j -> nth_error (set_nth l i x) j = nth_error l j.
Proof. induction l as [|y l IH]; intros [|i] [|j] x H; cbn; auto; try congruence. Qed.
Lemma set_nth_length {A} : forall (l : list A) i x, length (set_nth l i x) = length l.
Proof. induction l as [|y l IH]; intros [|i] x; cbn; auto. Qed.

Lemma upd_length (h : heap) l k v : length (upd h l k v) = length h.
Proof. unfold upd. destruct (nth_error h l); [apply set_nth_length|reflexivity]. Qed.
Lemma upd_same (h : heap) l k v : l < length h -> entry (upd h l k v) l k = Some v.
Proof.
  intros H. unfold entry, upd. destruct (nth_error h l) as [st|] eqn:E.
  - rewrite set_nth_same by assumption. apply dget_dset_same.
  - apply nth_error_None in E. lia.
Qed.
Lemma upd_other (h : heap) l k v l' k' : (l', k') <> (l, k) -> entry (upd h l k v) l' k' = entry h l' k'.
Proof.
  intros H. unfold entry, upd. destruct (nth_error h l) as [st|] eqn:E; [|reflexivity].
  destruct (Nat.eq_dec l l') as [->|N].
  - rewrite set_nth_same by (apply nth_error_Some; congruence). rewrite E. apply dget_dset_other. congruence.
  - rewrite set_nth_other by assumption. reflexivity.
Qed.
Lemma upd_nth_other (h : heap) l k v l' : l' <> l -> nth_error (upd h l k v) l' = nth_error h l'.
Proof.
  intros H. unfold upd. destruct (nth_error h l); [|reflexivity]. apply set_nth_other. congruence.
Qed.
Lemma entry_lt (h : heap) l k v : entry h l k = Some v -> l < length h.
Proof. unfold entry. destruct (nth_error h l) eqn:E; [|discriminate]. intros _. apply nth_error_Some. congruence. Qed.
Lemma entry_app (h : heap) l k : l < length h -> entry (h ++ [[]]) l k = entry h l k.
Proof. intros H. unfold entry. rewrite nth_error_app1 by assumption. reflexivity. Qed.
Lemma entry_new (h : heap) k : entry (h ++ [[]]) (length h) k = None.
Proof. unfold entry. rewrite nth_error_app2 by lia. rewrite Nat.sub_diag. reflexivity. Qed.
Lemma entry_app_some (h : heap) l k v : entry (h ++ [[]]) l k = Some v <-> entry h l k = Some v.
Proof.
  destruct (Nat.lt_ge_cases l (length h)) as [L|L]; [now rewrite entry_app|]. split; intros H; [|apply entry_lt in H; lia].
  destruct (Nat.eq_dec l (length h)) as [->|N]; [now rewrite entry_new in H|].
  apply entry_lt in H. rewrite app_length in H. cbn in H. lia.
Qed.

Lemma pv_ok_mono n m v : n <= m -> pv_ok n v -> pv_ok m v.
Proof.
  intros L. destruct v; cbn; intros H; try lia; auto. eapply Forall_impl; [|exact H]. intros a Ha. cbn in Ha. lia.
Qed.
Lemma wf_upd (h : heap) l k v : wf h -> pv_ok (length h) v -> wf (upd h l k v).
Proof.
  intros W V l' k' w H. rewrite upd_length.
  destruct (Nat.eq_dec l' l) as [El|Nl]; [|apply (W l' k'); rewrite <- H; symmetry; apply upd_other; congruence].
  destruct (string_dec k' k) as [Ek|Nk]; [|apply (W l' k'); rewrite <- H; symmetry; apply upd_other; congruence].
  subst. assert (l < length h) by (apply entry_lt in H; now rewrite upd_length in H).
  rewrite upd_same in H by assumption. now injection H as <-.
Qed.
Lemma wf_app (h : heap) : wf h -> wf (h ++ [[]]).
Proof.
  intros W l k v H. apply (proj1 (entry_app_some _ _ _ _)) in H. rewrite app_length. eapply pv_ok_mono; [|eapply W; exact H]. lia.
Qed.

(** One new server under [k] of [l], where there was nothing. *)
Definition newkid (h : heap) (l : loc) (k : string) : heap := upd (h ++ [[]]) l k (PServer (length h)).
Lemma newkid_length (h : heap) l k : length (newkid h l k) = S (length h).
Proof. unfold newkid. rewrite upd_length, app_length. cbn. lia. Qed.
Lemma newkid_same (h : heap) l k : l < length h -> entry (newkid h l k) l k = Some (PServer (length h)).
Proof. intros H. apply upd_same. rewrite app_length. cbn. lia. Qed.
Lemma newkid_some (h : heap) l k l' k' : (l', k') <> (l, k) -> l' < length h -> entry (newkid h l k) l' k' = entry h l' k'.
Proof. intros N H. unfold newkid. rewrite upd_other by assumption. now apply entry_app. Qed.
Lemma newkid_new (h : heap) l k : l < length h -> forall k', entry (newkid h l k) (length h) k' = None.
Proof. intros H k'. unfold newkid. rewrite upd_other; [apply entry_new|]. intros E. injection E as E _. lia. Qed.
Lemma newkid_nth_new (h : heap) l k : l < length h -> nth_error (newkid h l k) (length h) = Some [].
Proof.
  intros H. unfold newkid. rewrite upd_nth_other by lia. rewrite nth_error_app2 by lia. now rewrite Nat.sub_diag.
Qed.
Lemma newkid_wf (h : heap) l k : wf h -> wf (newkid h l k).
Proof. intros W. apply wf_upd; [now apply wf_app|]. cbn. rewrite app_length. cbn. lia. Qed.
Lemma newkid_keeps (h : heap) l k : entry h l k = None -> forall l' k' w, entry h l' k' = Some w -> entry (newkid h l k) l' k' = Some w.
Proof.
  intros N l' k' w H. rewrite newkid_some; [assumption| |now apply entry_lt in H]. intros E. injection E as -> ->. congruence.
Qed.

Lemma walk_keeps (h : heap) h' : (forall l k w, entry h l k = Some w -> entry h' l k = Some w) ->
  forall ks l c, walk h l ks = Some c -> walk h' l ks = Some c.
Proof.
  intros K. induction ks as [|k ks IH]; intros l c H; cbn in *; [assumption|].
  destruct (entry h l k) as [[|c'|]|] eqn:E; try discriminate. rewrite (K _ _ _ E). auto.
Qed.

Lemma only_makes_refl (h : heap) l ks : wf h -> only_makes h h l ks.
Proof. intros W. repeat split; auto. Qed.

(** The chain of new servers made for a path. *)
Lemma make_chain : forall ks h l, cleans ks -> ks <> [] -> wf h -> l < length h ->
  (forall k r, ks = k :: r -> entry h l k = None) ->
  forall fuel, length ks <= fuel ->
  exists h' c, add_child fuel h l (join ks) false = Some (h', One (PServer c)) /\ walk h' l ks = Some c /\
    length h < length h' /\ (length h <= c < length h')%nat /\ nth_error h' c = Some [] /\
    (forall l' k w, entry h l' k = Some w -> entry h' l' k = Some w) /\
    (forall l' k w, l' < length h -> entry h' l' k = Some w -> entry h l' k = Some w \/
       (l' = l /\ nth_error ks 0 = Some k /\ w = PServer (length h))) /\ wf h' /\
    (forall i l', i < length ks -> walk h' l (firstn i ks) = Some l' -> l' <> c).
Proof.
  induction ks as [|k ks IH]; intros h l C N W L HN fuel F; [congruence|].
  inversion C as [|? ? (C1 & C2 & C3) C4]; subst. destruct fuel as [|fuel]; [cbn in F; lia|].
  specialize (HN k ks eq_refl). cbn [add_child].
  destruct ks as [|k2 ks].
  - cbn [join]. rewrite split_first_none by assumption. rewrite HN. rewrite String.eqb_refl. fold (newkid h l k).
    exists (newkid h l k), (length h). split; [reflexivity|]. cbn [walk]. rewrite newkid_same by assumption.
    split; [reflexivity|]. rewrite newkid_length. split; [lia|]. split; [lia|]. split; [now apply newkid_nth_new|].
    split; [now apply newkid_keeps|]. split.
    { intros l' k' w Hl H. destruct (Nat.eq_dec l' l) as [->|Nl].
      - destruct (string_dec k' k) as [->|Nk].
        + rewrite newkid_same in H by assumption. injection H as <-. right. auto.
        + left. rewrite newkid_some in H; [assumption|congruence|assumption].
      - left. rewrite newkid_some in H; [assumption|congruence|assumption]. }
    split; [now apply newkid_wf|]. intros i l' Hi Hw. cbn in Hi. assert (i = 0) by lia. subst i. cbn in Hw. injection Hw as <-. lia.
  - change (join (k :: k2 :: ks)) with (k ++ "::" ++ join (k2 :: ks))%string. rewrite split_first_app by assumption.
    rewrite HN. inversion C4 as [|? ? D1 D2]; subst.
    assert (NE : String.eqb (join (k2 :: ks)) "" = false) by (apply String.eqb_neq; now apply join_nonempty).
    rewrite NE. fold (newkid h l k).
    destruct (IH (newkid h l k) (length h)) with (fuel := fuel) as (h' & c & A1 & A2 & A3 & A4 & A5 & A6 & A7 & A8 & A9); auto.
    + discriminate.
    + now apply newkid_wf.
    + rewrite newkid_length. lia.
    + intros k' r' _. now apply newkid_new.
    + cbn in F. cbn. lia.
    + rewrite A1. exists h', c. split; [reflexivity|].
      assert (El : entry h' l k = Some (PServer (length h))) by (apply A6; now apply newkid_same).
      split; [cbn [walk]; rewrite El; exact A2|]. rewrite newkid_length in *. split; [lia|]. split; [lia|]. split; [assumption|].
      split; [intros l' k' w H; apply A6; now apply newkid_keeps|]. split; [|split; [assumption|]].
      * intros l' k' w Hl H. destruct (A7 l' k' w) as [H1|(-> & H1 & H2)]; [lia|assumption| |exfalso; lia].
        destruct (Nat.eq_dec l' l) as [->|Nl]; [destruct (string_dec k' k) as [->|Nk]|].
        -- rewrite newkid_same in H1 by assumption. injection H1 as <-. right. auto.
        -- left. rewrite newkid_some in H1; [assumption|congruence|assumption].
        -- left. rewrite newkid_some in H1; [assumption|congruence|assumption].
      * intros [|i] l' Hi Hw; [cbn in Hw; injection Hw as <-; lia|].
        cbn [firstn walk] in Hw. rewrite El in Hw. apply (A9 i l'); [cbn in *; lia|exact Hw].
Qed.

(** AddChild along a plain path. *)
Lemma add_child_plain : forall ks h l, cleans ks -> ks <> [] -> wf h -> l < length h -> plain h l ks ->
  forall fuel, length ks <= fuel ->
  exists h' c, add_child fuel h l (join ks) false = Some (h', One (PServer c)) /\ walk h' l ks = Some c /\
    only_makes h h' l ks /\ c < length h' /\
    (walk h l ks = Some c /\ h' = h \/ walk h l ks = None /\ length h <= c /\ nth_error h' c = Some [] /\
       forall i l', i < length ks -> walk h' l (firstn i ks) = Some l' -> l' <> c).
Proof.
  induction ks as [|k ks IH]; intros h l C N W L P fuel F; [congruence|].
  destruct (entry h l k) as [v|] eqn:E.
  - cbn [plain] in P. rewrite E in P. destruct v as [|c0|]; try contradiction.
    assert (Lc : c0 < length h) by (exact (W _ _ _ E)).
    inversion C as [|? ? (C1 & C2 & C3) C4]; subst. destruct fuel as [|fuel]; [cbn in F; lia|]. cbn [add_child].
    destruct ks as [|k2 ks].
    + cbn [join]. rewrite split_first_none by assumption. rewrite E. cbn [negb orb]. rewrite String.eqb_refl.
      exists h, c0. split; [reflexivity|]. cbn [walk]. rewrite E. split; [reflexivity|]. split; [now apply only_makes_refl|].
      split; [assumption|]. left. auto.
    + change (join (k :: k2 :: ks)) with (k ++ "::" ++ join (k2 :: ks))%string. rewrite split_first_app by assumption.
      rewrite E. cbn [negb orb]. inversion C4 as [|? ? D1 D2]; subst.
      assert (NE : String.eqb (join (k2 :: ks)) "" = false) by (apply String.eqb_neq; now apply join_nonempty). rewrite NE.
      destruct (IH h c0) with (fuel := fuel) as (h' & c & A1 & A2 & (B1 & B2 & B3 & B4) & A4 & A5); auto; [discriminate|cbn in *; lia|].
      exists h', c. split; [exact A1|]. cbn [walk]. rewrite (B2 _ _ _ E). split; [exact A2|]. rewrite E. split; [|split; [assumption|]].
      * split; [assumption|]. split; [assumption|]. split; [|assumption]. intros l' k' w Hl H.
        destruct (B3 l' k' w Hl H) as [?|(i & c' & I1 & I2 & I3)]; [now left|]. right. exists (S i), c'.
        cbn [firstn walk nth_error]. rewrite E. auto.
      * destruct A5 as [A5|(A5 & A6 & A7 & A8)]; [left; exact A5|]. right. repeat (split; [assumption|]).
        intros [|i] l' Hi Hw; [cbn in Hw; injection Hw as <-; lia|]. cbn [firstn walk] in Hw. rewrite (B2 _ _ _ E) in Hw.
        apply (A8 i l'); [cbn in *; lia|exact Hw].
  - destruct (make_chain (k :: ks) h l C N W L) with (fuel := fuel) as (h' & c & A1 & A2 & A3 & A4 & A5 & A6 & A7 & A8 & A9); auto.
    { intros k' r' Q. injection Q as <- _. exact E. }
    exists h', c. split; [assumption|]. split; [assumption|]. split; [|split; [lia|]].
    + split; [lia|]. split; [assumption|]. split; [|assumption]. intros l' k' w Hl H.
      destruct (A7 l' k' w Hl H) as [?|(-> & H1 & ->)]; [now left|]. right. exists 0, (length h). cbn. auto.
    + right. cbn [walk]. rewrite E. repeat split; auto. lia.
Qed.

Lemma AddChild_plain ks h l : cleans ks -> ks <> [] -> wf h -> l < length h -> plain h l ks ->
  exists h' c, AddChild h l (join ks) false = Some (h', One (PServer c)) /\ walk h' l ks = Some c /\
    only_makes h h' l ks /\ c < length h' /\
    (walk h l ks = Some c /\ h' = h \/ walk h l ks = None /\ length h <= c /\ nth_error h' c = Some [] /\
       forall i l', i < length ks -> walk h' l (firstn i ks) = Some l' -> l' <> c).
Proof. intros C N W L P. apply add_child_plain; auto. pose proof (join_length ks C). lia. Qed.

Lemma walk_upd : forall ks h l c k v, walk h l ks = Some c -> (forall i l', i < length ks -> walk h l (firstn i ks) = Some l' -> l' <> c) ->
  walk (upd h c k v) l ks = Some c.
Proof.
  induction ks as [|a ks IH]; intros h l c k v H D; cbn in *; [assumption|].
  destruct (entry h l a) as [[|c0|]|] eqn:E; try discriminate.
  assert (Nl : l <> c) by (apply (D 0 l); [lia|reflexivity]).
  rewrite upd_other by congruence. rewrite E. apply IH; [assumption|]. intros i l' Hi Hw. apply (D (S i) l'); [lia|].
  cbn. rewrite E. exact Hw.
Qed.
