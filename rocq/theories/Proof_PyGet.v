(** The typed getters and hierarchical assignment of the Python parameter server. *)

From Coq Require Import String Ascii List Arith Lia Bool QArith ZArith.
Import ListNotations.
From Verif Require Import Model_BenchRun Proof_BenchRun Model_Params Model_PyParams Spec_PyParams Proof_PyAccess.
Local Open Scope string_scope.
Local Open Scope nat_scope.
Local Open Scope list_scope.

Lemma snoc_ne {A} (ks : list A) k : ks ++ [k] <> [].
Proof. destruct ks; discriminate. Qed.

(** Reading a parameter that exists. *)
Lemma get_found : forall ks h l c k v d, walk h l ks = Some c -> entry h c k = Some v ->
  (forall s, v <> PServer s) -> get_val_iter h l (ks ++ [k]) d = Some (h, v).
Proof.
  induction ks as [|a ks IH]; intros h l c k v d W E N; cbn in *.
  - injection W as ->. rewrite E. destruct v; try reflexivity. destruct (N l eq_refl).
  - destruct (entry h l a) as [[|c0|]|]; try discriminate. eauto.
Qed.

(** Reading a group. *)
Lemma get_group : forall ks h l c d, walk h l ks = Some c -> get_val_iter h l ks d = None.
Proof.
  induction ks as [|a ks IH]; intros h l c d W; cbn in *; [reflexivity|].
  destruct (entry h l a) as [[|c0|]|]; try discriminate. eauto.
Qed.

(** Something else than a group on the way is what is returned. *)
Lemma get_shadowed : forall ks h l c k v r d, walk h l ks = Some c -> entry h c k = Some v ->
  (forall s, v <> PServer s) -> get_val_iter h l (ks ++ k :: r) d = Some (h, v).
Proof.
  induction ks as [|a ks IH]; intros h l c k v r d W E N; cbn in *.
  - injection W as ->. rewrite E. destruct v; try reflexivity. destruct (N l eq_refl).
  - destruct (entry h l a) as [[|c0|]|]; try discriminate. eauto.
Qed.

Lemma get_default_new : forall ks h l k d, wf h -> l < length h -> pv_ok (length h) d ->
  plain h l ks -> absent h l ks k ->
  exists h' c, get_val_iter h l (ks ++ [k]) d = Some (h', d) /\ walk h' l ks = Some c /\ entry h' c k = Some d /\
    only_puts h h' l ks c k d /\ (forall l' k' w, entry h l' k' = Some w -> entry h' l' k' = Some w).
Proof.
  induction ks as [|a ks IH]; intros h l k d W L D P A.
  - assert (E : entry h l k = None) by (apply A; reflexivity). cbn [app get_val_iter]. rewrite E.
    assert (K : forall l' k' w, entry h l' k' = Some w -> entry (upd h l k d) l' k' = Some w).
    { intros l' k' w H. rewrite upd_other; [assumption|]. intros Q. injection Q as -> ->. congruence. }
    exists (upd h l k d), l. split; [reflexivity|]. split; [reflexivity|]. split; [now apply upd_same|]. split; [|exact K].
    split; [rewrite upd_length; lia|]. split; [auto|]. split; [|now apply wf_upd].
    intros l' k' w Hl H. destruct (Nat.eq_dec l' l) as [->|Nl]; [destruct (string_dec k' k) as [->|Nk]|].
    + rewrite upd_same in H by assumption. injection H as <-. auto.
    + rewrite upd_other in H by congruence. auto.
    + rewrite upd_other in H by congruence. auto.
  - destruct (entry h l a) as [v|] eqn:E.
    + cbn [plain] in P. rewrite E in P. destruct v as [|c0|]; try contradiction.
      assert (Lc : c0 < length h) by exact (W _ _ _ E).
      destruct (IH h c0 k d) as (h' & c & A1 & A2 & A3 & (B1 & B2 & B3 & B4) & A5); auto.
      { intros c Hc. apply A. cbn [walk]. now rewrite E. }
      exists h', c. cbn [app get_val_iter walk]. rewrite E, (A5 _ _ _ E). repeat (split; [assumption|]). split; [|assumption].
      split; [assumption|]. split; [assumption|]. split; [|assumption]. intros l' k' w Hl H.
      destruct (B3 l' k' w Hl H) as [?|[?|(i & s & I1 & I2 & I3)]]; auto. right. right. exists (S i), s.
      cbn [firstn walk nth_error]. rewrite E. auto.
    + cbn [app get_val_iter]. rewrite E. assert (NE : ks ++ [k] <> []) by apply snoc_ne.
      destruct (ks ++ [k]) as [|x y] eqn:Ek; [congruence|]. cbn [alloc]. rewrite <- Ek. fold (newkid h l a).
      destruct (IH (newkid h l a) (length h) k d) as (h' & c & A1 & A2 & A3 & (B1 & B2 & B3 & B4) & A5).
      * now apply newkid_wf.
      * rewrite newkid_length. lia.
      * eapply pv_ok_mono; [|exact D]. rewrite newkid_length. lia.
      * destruct ks; cbn; [exact I|]. now rewrite newkid_new.
      * intros c. destruct ks as [|b ks]; cbn; [|now rewrite newkid_new]. intros Q. injection Q as <-. now apply newkid_new.
      * rewrite newkid_length in *. unfold alloc. exists h', c. split; [exact A1|].
        assert (Ea : entry h' l a = Some (PServer (length h))) by (apply A5; now apply newkid_same).
        cbn [walk]. rewrite Ea. split; [assumption|]. split; [assumption|]. 
        assert (K : forall l' k' w, entry h l' k' = Some w -> entry h' l' k' = Some w)
          by (intros l' k' w H; apply A5; now apply newkid_keeps).
        split; [|assumption]. split; [lia|]. split; [auto|]. split; [|assumption].
        intros l' k' w Hl H. destruct (B3 l' k' w ltac:(lia) H) as [H1|[H1|(i & s & I1 & I2 & I3 & I4)]]; auto.
        -- destruct (Nat.eq_dec l' l) as [->|Nl]; [destruct (string_dec k' a) as [->|Nk]|].
           ++ rewrite newkid_same in H1 by assumption. injection H1 as <-. right. right. exists 0, (length h). cbn. auto.
           ++ rewrite newkid_some in H1; [auto|congruence|assumption].
           ++ rewrite newkid_some in H1; [auto|congruence|assumption].
        -- exfalso. destruct i as [|i]; [cbn in I1; injection I1 as <-; lia|].
           destruct ks as [|b ks]; [destruct i; discriminate|]. cbn [firstn walk] in I1. now rewrite newkid_new in I1.
Qed.

Lemma cleans_app ks k : cleans (ks ++ [k]) -> cleans ks /\ clean k.
Proof. intros H. apply Forall_app in H as [H1 H2]. split; [assumption|]. now inversion H2. Qed.

Lemma plain_as_is j : plain_value j = true -> stored_as_is (PVal j).
Proof.
  intros H h. destruct j as [a|[|x l]|d]; cbn in *; try reflexivity; try discriminate.
  apply negb_true_iff in H. now rewrite H.
Qed.

Lemma assign_spec ks k h l v : cleans (ks ++ [k]) -> wf h -> l < length h -> plain h l ks -> no_return h l ks ->
  stored_as_is v -> pv_ok (length h) v ->
  exists h' c, set_item h l (join (ks ++ [k])) v = Some h' /\ walk h' l ks = Some c /\ entry h' c k = Some v /\
    only_puts h h' l ks c k v.
Proof.
  intros C W L P NR S V. apply cleans_app in C as D. destruct D as [Cs Ck]. unfold set_item. rewrite S. unfold set_hier.
  destruct ks as [|a ks].
  - cbn [app join]. rewrite rsplit_single by assumption. exists (upd h l k v), l. split; [reflexivity|].
    split; [reflexivity|]. split; [now apply upd_same|]. split; [rewrite upd_length; lia|].
    split; [intros l' k' w H N; rewrite upd_other; assumption|]. split; [|now apply wf_upd].
    intros l' k' w Hl H. destruct (Nat.eq_dec l' l) as [->|Nl]; [destruct (string_dec k' k) as [->|Nk]|].
    + rewrite upd_same in H by assumption. injection H as <-. auto.
    + rewrite upd_other in H by congruence. auto.
    + rewrite upd_other in H by congruence. auto.
  - rewrite rsplit_join by (auto; discriminate).
    destruct (AddChild_plain (a :: ks) h l) as (h1 & c & A1 & A2 & (B1 & B2 & B3 & B4) & A4 & A5); auto; [discriminate|].
    rewrite A1. exists (upd h1 c k v), c. split; [reflexivity|].
    assert (ND : forall i l', i < length (a :: ks) -> walk h1 l (firstn i (a :: ks)) = Some l' -> l' <> c).
    { destruct A5 as [[A5 ->]|(_ & _ & _ & A5)]; [|exact A5]. intros i l' Hi Hw ->. exact (NR c i A5 Hi Hw). }
    split; [now apply walk_upd|]. split; [now apply upd_same|]. split; [rewrite upd_length; lia|].
    split; [intros l' k' w H N; rewrite upd_other; auto|].
    split; [|apply wf_upd; [assumption|eapply pv_ok_mono; [|exact V]; lia]].
    intros l' k' w Hl H.
    assert (K : (l', k') <> (c, k) -> entry h l' k' = Some w \/ (l', k', w) = (c, k, v) \/
       exists i s, walk h l (firstn i (a :: ks)) = Some l' /\ nth_error (a :: ks) i = Some k' /\ w = PServer s /\ length h <= s).
    { intros N. rewrite upd_other in H by assumption. destruct (B3 l' k' w Hl H) as [?|?]; auto. }
    destruct (Nat.eq_dec l' c) as [->|Nl]; [destruct (string_dec k' k) as [->|Nk]|]; [|apply K; congruence|apply K; congruence].
    rewrite upd_same in H by assumption. injection H as <-. auto.
Qed.


(* ---- getters in general ---- *)
Lemma get_none_iff : forall hier (h : heap) l d, l < length h -> wf h ->
  (get_val_iter h l hier d = None <-> exists c, walk h l hier = Some c).
Proof.
  induction hier as [|k r IH]; intros h l d L W; cbn [get_val_iter walk].
  - split; [eexists; reflexivity|reflexivity].
  - destruct (entry h l k) as [[j|c|cs]|] eqn:E.
    + split; [discriminate|intros [? ?]; discriminate].
    + apply IH; [exact (W _ _ _ E)|assumption].
    + split; [discriminate|intros [? ?]; discriminate].
    + destruct r as [|k2 r]; [split; [discriminate|intros [? ?]; discriminate]|].
      unfold alloc. split; [|intros [? ?]; discriminate]. fold (newkid h l k). intros H. exfalso.
      apply IH in H; [|rewrite newkid_length; lia|now apply newkid_wf]. destruct H as [c H].
      cbn [walk] in H. rewrite newkid_new in H by assumption. discriminate.
Qed.

Lemma get_keeps : forall hier (h : heap) l d h' v, l < length h -> wf h -> get_val_iter h l hier d = Some (h', v) ->
  forall l' k w, entry h l' k = Some w -> entry h' l' k = Some w.
Proof.
  induction hier as [|k r IH]; intros h l d h' v L W H l' k' w E'; cbn [get_val_iter] in H; [discriminate|].
  destruct (entry h l k) as [[j|c|cs]|] eqn:E.
  - now injection H as <- <-.
  - eapply IH; [exact (W _ _ _ E)|exact W|exact H|exact E'].
  - now injection H as <- <-.
  - destruct r as [|k2 r].
    + injection H as <- <-. rewrite upd_other; [assumption|]. intros Q. injection Q as -> ->. congruence.
    + unfold alloc in H. fold (newkid h l k) in H. eapply IH; [| |exact H|].
      * rewrite newkid_length. lia.
      * now apply newkid_wf.
      * now apply newkid_keeps.
Qed.

Lemma get_again : forall hier (h : heap) l d h' v, l < length h -> wf h -> (forall s, d <> PServer s) ->
  get_val_iter h l hier d = Some (h', v) -> forall d', get_val_iter h' l hier d' = Some (h', v).
Proof.
  induction hier as [|k r IH]; intros h l d h' v L W D H d'; cbn [get_val_iter] in H |- *; [discriminate|].
  destruct (entry h l k) as [[j|c|cs]|] eqn:E.
  - injection H as <- <-. now rewrite E.
  - assert (Lc : c < length h) by exact (W _ _ _ E).
    rewrite (get_keeps r h c d h' v Lc W H _ _ _ E). eapply IH; eauto.
  - injection H as <- <-. now rewrite E.
  - destruct r as [|k2 r].
    + injection H as <- <-. rewrite upd_same by assumption. destruct d as [|s|]; try reflexivity. destruct (D s eq_refl).
    + unfold alloc in H. fold (newkid h l k) in H.
      assert (L1 : length h < length (newkid h l k)) by (rewrite newkid_length; lia).
      rewrite (get_keeps _ _ _ _ _ _ L1 (newkid_wf h l k W) H l k (PServer (length h))) by now apply newkid_same.
      eapply IH; [exact L1|now apply newkid_wf|exact D|exact H].
Qed.

(* ---- other assignments ---- *)
Lemma AddChild_single (h : heap) l a : clean a -> AddChild h l a false =
  match entry h l a with Some v => Some (h, One v) | None => Some (newkid h l a, One (PServer (length h))) end.
Proof.
  intros (A1 & A2 & A3). unfold AddChild. cbn [add_child]. rewrite split_first_none by assumption.
  destruct (entry h l a); cbn [negb orb]; reflexivity.
Qed.
Lemma rsplit_two a k : clean a -> clean k -> rsplit (join [a; k]) = Some (a, k).
Proof. intros A K. apply (rsplit_join [a] k); [constructor; [assumption|constructor; [assumption|constructor]]|discriminate]. Qed.

Lemma upd_all_length : forall cs (h : heap) k v, length (upd_all h cs k v) = length h.
Proof. induction cs as [|c cs IH]; intros h k v; cbn; [reflexivity|]. now rewrite IH, upd_length. Qed.
Lemma upd_all_other : forall cs (h : heap) k v l' k', (k' <> k \/ ~ In l' cs) ->
  entry (upd_all h cs k v) l' k' = entry h l' k'.
Proof.
  induction cs as [|c cs IH]; intros h k v l' k' H; cbn; [reflexivity|]. rewrite IH by (cbn in H; tauto).
  apply upd_other. intros Q. injection Q as -> ->. cbn in H. tauto.
Qed.
Lemma upd_all_same : forall cs (h : heap) k v c, Forall (fun c => c < length h) cs -> In c cs ->
  entry (upd_all h cs k v) c k = Some v.
Proof.
  induction cs as [|c0 cs IH]; intros h k v c F I; cbn; [destruct I|]. inversion F; subst.
  destruct (in_dec Nat.eq_dec c cs) as [J|J].
  - apply IH; [|assumption]. now rewrite upd_length.
  - destruct I as [->|I]; [|contradiction]. rewrite upd_all_other by auto. now apply upd_same.
Qed.

(* ---- AddChild with delete ---- *)
Lemma delete_child : forall ks h l c k v, cleans (ks ++ [k]) -> walk h l ks = Some c -> entry h c k = Some v ->
  forall fuel, length (ks ++ [k]) <= fuel ->
  add_child fuel h l (join (ks ++ [k])) true = Some (newkid h c k, One (PServer (length h))).
Proof.
  induction ks as [|a ks IH]; intros h l c k v C Wk E fuel F.
  - cbn in Wk. injection Wk as ->. inversion C as [|? ? (C1 & C2 & C3) _]; subst.
    destruct fuel as [|fuel]; [cbn in F; lia|]. cbn [app join add_child]. rewrite split_first_none by assumption.
    rewrite E. cbn. reflexivity.
  - cbn [walk] in Wk. destruct (entry h l a) as [[|c0|]|] eqn:Ea; try discriminate.
    inversion C as [|? ? (C1 & C2 & C3) C4]; subst. destruct fuel as [|fuel]; [cbn in F; lia|].
    cbn [app] in *. destruct (ks ++ [k]) as [|k2 r] eqn:Ek; [destruct ks; discriminate|].
    change (join (a :: k2 :: r)) with (a ++ "::" ++ join (k2 :: r))%string. cbn [add_child].
    rewrite split_first_app by assumption. rewrite Ea. inversion C4 as [|? ? D1 D2]; subst.
    assert (NE : String.eqb (join (k2 :: r)) "" = false) by (apply String.eqb_neq; now apply join_nonempty).
    rewrite NE. cbn [negb orb]. rewrite <- Ek. apply (IH h c0 c k v); auto.
    + now rewrite Ek.
    + rewrite Ek. cbn in *. lia.
Qed.
