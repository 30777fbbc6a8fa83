From Coq Require Import String Ascii List Arith Lia Bool QArith ZArith.
Import ListNotations.
From Verif Require Import Model_BenchRun Proof_BenchRun Model_Params Model_PyParams Spec_PyParams Proof_PyAccess Proof_PyGet
  Model_ScenGen Model_ModelReaders Spec_ModelReaders.
Local Open Scope string_scope.
Local Open Scope nat_scope.
Local Open Scope list_scope.

Definition reach (h : heap) (l x : loc) : Prop := exists q, walk h l q = Some x.
Lemma reach_refl h l : reach h l l. Proof. exists []. reflexivity. Qed.
Lemma reach_step h l k c x : entry h l k = Some (PServer c) -> reach h c x -> reach h l x.
Proof. intros E (q & W). exists (k :: q). cbn. now rewrite E. Qed.
Lemma reach_lt h : wf h -> forall q l x, l < length h -> walk h l q = Some x -> x < length h.
Proof.
  intros W. induction q as [|k q IH]; intros l x L H; cbn in H; [injection H as <-; assumption|].
  destruct (entry h l k) as [[|c|]|] eqn:E; try discriminate. eapply IH; [|exact H]. exact (W _ _ _ E).
Qed.
Lemma tree_kid h l k c : tree h l -> entry h l k = Some (PServer c) -> tree h c.
Proof.
  intros T E p q x P Q. assert (k :: p = k :: q) as A; [|now injection A].
  apply (T (k :: p) (k :: q) x); cbn; now rewrite E.
Qed.
Lemma tree_self h l k c : tree h l -> entry h l k = Some (PServer c) -> ~ reach h c l.
Proof. intros T E (q & W). assert (k :: q = []); [|discriminate]. apply (T _ _ l); [cbn; now rewrite E|reflexivity]. Qed.
Lemma tree_sibling h l k k2 c c2 x : tree h l -> k <> k2 -> entry h l k = Some (PServer c) -> entry h l k2 = Some (PServer c2) ->
  reach h c x -> reach h c2 x -> False.
Proof.
  intros T N E E2 (q & W) (q2 & W2). assert (k :: q = k2 :: q2) as A; [|injection A; congruence].
  apply (T _ _ x); cbn; [now rewrite E|now rewrite E2].
Qed.

(** What was done happened below [c] only. *)
Record below (h h' : heap) (c : loc) : Prop := mkBelow {
  bl_wf : wf h';
  bl_len : length h <= length h';
  bl_keep : forall l k w, entry h l k = Some w -> entry h' l k = Some w;
  bl_frame : forall x k, x < length h -> ~ reach h c x -> entry h' x k = entry h x k;
  bl_reach : forall x, reach h' c x -> reach h c x \/ length h <= x;
  bl_tree : tree h c -> tree h' c }.

Lemma below_refl h c : wf h -> below h h c.
Proof. intros W. constructor; auto. Qed.

Lemma below_trans h h1 h2 c : c < length h -> below h h1 c -> below h1 h2 c -> below h h2 c.
Proof.
  intros L A B. constructor.
  - apply B.
  - pose proof (bl_len _ _ _ A). pose proof (bl_len _ _ _ B). lia.
  - intros. apply B. now apply A.
  - intros x k X N. rewrite <- (bl_frame _ _ _ A x k X N). apply B; [pose proof (bl_len _ _ _ A); lia|].
    intros Y. destruct (bl_reach _ _ _ A x Y); [auto|lia].
  - intros x X. destruct (bl_reach _ _ _ B x X) as [Y|Y]; [|right; pose proof (bl_len _ _ _ A); lia]. now apply A.
  - intros T. apply B. now apply A.
Qed.

(** Servers whose entries are the same are walked the same way. *)
Lemma walk_same h h' c : (forall x k, reach h c x -> entry h' x k = entry h x k) -> forall q, walk h' c q = walk h c q.
Proof.
  intros A q. revert c A. induction q as [|k q IH]; intros c A; cbn; [reflexivity|]. rewrite (A c k (reach_refl _ _)).
  destruct (entry h c k) as [[|c'|]|] eqn:E; try reflexivity. apply IH. intros x k' X. apply A. eapply reach_step; eauto.
Qed.
Lemma says_same h h' c : (forall x k, reach h c x -> entry h' x k = entry h x k) -> forall q d, says h' c q d = says h c q d.
Proof.
  intros A q. revert c A. induction q as [|k q IH]; intros c A d; cbn; [reflexivity|]. rewrite (A c k (reach_refl _ _)).
  destruct (entry h c k) as [[|c'|]|] eqn:E; try reflexivity. apply IH. intros x k' X. apply A. eapply reach_step; eauto.
Qed.

Section Up.
Variables (h h' : heap) (l c : loc) (k : string).
Hypotheses (W : wf h) (L : l < length h) (E : entry h l k = Some (PServer c)) (T : tree h l) (B : below h h' c).

Lemma up_here k2 : entry h' l k2 = entry h l k2.
Proof. apply B; [assumption|]. eapply tree_self; eauto. Qed.
Lemma up_sib k2 c2 x k' : k2 <> k -> entry h l k2 = Some (PServer c2) -> reach h c2 x -> entry h' x k' = entry h x k'.
Proof.
  intros N E2 X. apply B.
  - destruct X as (q & Q). eapply reach_lt; [exact W| |exact Q]. exact (W _ _ _ E2).
  - intros Y. eapply (tree_sibling h l k k2); eauto.
Qed.
Lemma up_says k2 q d : k2 <> k -> says h' l (k2 :: q) d = says h l (k2 :: q) d.
Proof.
  intros N. cbn. rewrite up_here. destruct (entry h l k2) as [[|c2|]|] eqn:E2; try reflexivity.
  apply says_same. intros x k' X. now apply (up_sib k2 c2).
Qed.
Lemma up_says_in q d : says h' l (k :: q) d = says h' c q d.
Proof. cbn. rewrite up_here, E. reflexivity. Qed.
(** Walking in the new heap from [l]. *)
Lemma up_walk q x : walk h' l q = Some x ->
  (exists q', q = k :: q' /\ walk h' c q' = Some x) \/ (walk h l q = Some x /\ ~ reach h c x).
Proof.
  destruct q as [|k2 q]; cbn; intros H.
  - injection H as <-. right. split; [reflexivity|]. eapply tree_self; eauto.
  - rewrite up_here in H. destruct (string_dec k2 k) as [->|N].
    + rewrite E in H. left. eauto.
    + right. destruct (entry h l k2) as [[|c2|]|] eqn:E2; try discriminate.
      rewrite (walk_same h h') in H by (intros y k' Y; now apply (up_sib k2 c2)). split; [assumption|].
      intros Y. eapply (tree_sibling h l k k2); eauto. now exists q.
Qed.
Lemma below_up : below h h' l.
Proof.
  constructor; try apply B.
  - intros x k' X N. apply B; [assumption|]. intros Y. apply N. eapply reach_step; eauto.
  - intros x (q & Q). apply up_walk in Q. destruct Q as [(q' & -> & Q)|(Q & _)].
    + destruct (bl_reach _ _ _ B x) as [Y|Y]; [now exists q'|left; eapply reach_step; eauto|now right].
    + left. now exists q.
  - intros _ p q x P Q.
    assert (walk h l p = Some x -> ~ reach h c x -> forall q', walk h' c q' = Some x -> False) as X1.
    { intros A N q' Q'. destruct (bl_reach _ _ _ B x) as [Y|Y]; [now exists q'|contradiction|].
      pose proof (reach_lt _ W _ _ _ L A). lia. }
    assert (walk h l q = Some x -> ~ reach h c x -> forall q', walk h' c q' = Some x -> False) as X2.
    { intros A N q' Q'. destruct (bl_reach _ _ _ B x) as [Y|Y]; [now exists q'|contradiction|].
      pose proof (reach_lt _ W _ _ _ L A). lia. }
    apply up_walk in P. apply up_walk in Q.
    destruct P as [(p' & -> & P)|(P & P')]; destruct Q as [(q' & -> & Q)|(Q & Q')].
    + f_equal. apply (bl_tree _ _ _ B (tree_kid _ _ _ _ T E) _ _ x); assumption.
    + exfalso. eapply X2; eauto.
    + exfalso. eapply X1; eauto.
    + eapply T; eauto.
Qed.
End Up.

(** A new value at [l]. *)
Lemma put_below h l k j : wf h -> l < length h -> entry h l k = None -> below h (upd h l k (PVal j)) l.
Proof.
  intros W L N.
  assert (forall q c x, walk (upd h l k (PVal j)) c q = Some x <-> walk h c q = Some x) as WK.
  { induction q as [|k' q IH]; intros c x; [reflexivity|]. cbn.
    destruct (Nat.eq_dec c l) as [->|Nc].
    - destruct (string_dec k' k) as [->|Nk].
      + rewrite upd_same, N by assumption. split; discriminate.
      + rewrite upd_other by congruence. destruct (entry h l k') as [[|y|]|]; try reflexivity. apply IH.
    - rewrite upd_other by congruence. destruct (entry h c k') as [[|y|]|]; try reflexivity. apply IH. }
  constructor.
  - apply wf_upd; [assumption|exact I].
  - rewrite upd_length. lia.
  - intros x k' w H. rewrite upd_other; [assumption|]. intros A. injection A as -> ->. congruence.
  - intros x k' X R. rewrite upd_other; [reflexivity|]. intros A. injection A as -> ->. apply R, reach_refl.
  - intros x (q & Q). left. exists q. now apply WK.
  - intros T p q x P Q. apply WK in P. apply WK in Q. eapply T; eauto.
Qed.

(** A new group at [l]. *)
Lemma newkid_below h l k : wf h -> l < length h -> entry h l k = None -> below h (newkid h l k) l.
Proof.
  intros W L N.
  assert (forall q x, walk (newkid h l k) (length h) q = Some x -> q = [] /\ x = length h) as NW.
  { intros [|k' q] x H; cbn in H; [injection H as <-; auto|]. rewrite newkid_new in H by assumption. discriminate. }
  assert (forall q c x, c < length h -> walk (newkid h l k) c q = Some x ->
            walk h c q = Some x \/ (exists q', q = q' ++ [k] /\ walk h c q' = Some l /\ x = length h)) as WK.
  { induction q as [|k' q IH]; intros c x C H; [now left|]. cbn in H.
    destruct (Nat.eq_dec c l) as [->|Nc]; [destruct (string_dec k' k) as [->|Nk]|].
    - rewrite newkid_same in H by assumption. apply NW in H. destruct H as [-> ->]. right. exists []. auto.
    - rewrite newkid_some in H by (congruence || assumption). destruct (entry h l k') as [[|y|]|] eqn:E; try discriminate.
      apply IH in H; [|exact (W _ _ _ E)]. destruct H as [H|(q' & -> & A & ->)]; [left; cbn; now rewrite E|].
      right. exists (k' :: q'). split; [reflexivity|]. split; [cbn; now rewrite E|reflexivity].
    - rewrite newkid_some in H by (congruence || assumption). destruct (entry h c k') as [[|y|]|] eqn:E; try discriminate.
      apply IH in H; [|exact (W _ _ _ E)]. destruct H as [H|(q' & -> & A & ->)]; [left; cbn; now rewrite E|].
      right. exists (k' :: q'). split; [reflexivity|]. split; [cbn; now rewrite E|reflexivity]. }
  constructor.
  - now apply newkid_wf.
  - rewrite newkid_length. lia.
  - now apply newkid_keeps.
  - intros x k' X R. rewrite newkid_some; [reflexivity| |assumption]. intros A. injection A as -> ->. apply R, reach_refl.
  - intros x (q & Q). apply WK in Q; [|assumption]. destruct Q as [Q|(_ & _ & _ & ->)]; [left; now exists q|right; lia].
  - intros T p q x P Q. apply WK in P; [|assumption]. apply WK in Q; [|assumption].
    destruct P as [P|(p' & -> & P & ->)]; destruct Q as [Q|(q' & -> & Q & X)].
    + eapply T; eauto.
    + subst x. pose proof (reach_lt _ W _ _ _ L P). lia.
    + pose proof (reach_lt _ W _ _ _ L Q). lia.
    + f_equal. eapply T; eauto.
Qed.

(** * A typed read *)
Lemma get_gives : forall p h l d h' v, wf h -> l < length h ->
  get_val_iter h l p d = Some (h', v) -> says h l p d = Some v.
Proof.
  induction p as [|k r IH]; intros h l d h' v W L H; [discriminate|]. cbn [get_val_iter says] in *.
  destruct (entry h l k) as [[j|c|cs]|] eqn:E; [injection H as _ <-; reflexivity| |injection H as _ <-; reflexivity|].
  - eapply IH; [exact W| |exact H]. exact (W _ _ _ E).
  - destruct r as [|k2 r]; [injection H as _ <-; reflexivity|]. unfold alloc in H.
    fold (newkid h l k) in H. pose proof (newkid_length h l k) as NL. apply IH in H; [|now apply newkid_wf|lia].
    cbn [says] in H. rewrite newkid_new in H by assumption. exact H.
Qed.
Lemma get_succeeds : forall p h l d v, wf h -> l < length h -> says h l p d = Some v ->
  exists h', get_val_iter h l p d = Some (h', v).
Proof.
  induction p as [|k r IH]; intros h l d v W L H; [discriminate|]. cbn [get_val_iter says] in *.
  destruct (entry h l k) as [[j|c|cs]|] eqn:E; [injection H as <-; eauto| |injection H as <-; eauto|].
  - apply IH; [assumption| |assumption]. exact (W _ _ _ E).
  - injection H as <-. destruct r as [|k2 r]; [eauto|]. unfold alloc. fold (newkid h l k).
    pose proof (newkid_length h l k) as NL. apply IH; [now apply newkid_wf|lia|]. cbn [says].
    now rewrite newkid_new.
Qed.

Lemma get_below : forall p h l j h' v, wf h -> l < length h -> tree h l ->
  get_val_iter h l p (PVal j) = Some (h', v) -> below h h' l.
Proof.
  induction p as [|k r IH]; intros h l j h' v W L T H; [discriminate|]. cbn [get_val_iter] in H.
  destruct (entry h l k) as [[x|c|cs]|] eqn:E; [injection H as <- _; now apply below_refl| |injection H as <- _; now apply below_refl|].
  - pose proof (W _ _ _ E) as C. cbn in C. apply (below_up h h' l c k W L E T). eapply IH; [exact W|exact C| |exact H]. eapply tree_kid; eauto.
  - destruct r as [|k2 r]; [injection H as <- _; now apply put_below|]. unfold alloc in H. fold (newkid h l k) in H.
    pose proof (newkid_length h l k) as NL. pose proof (newkid_below h l k W L E) as B.
    apply (below_trans h (newkid h l k)); [assumption|assumption|]. pose proof (newkid_same h l k L) as E1.
    pose proof (bl_tree _ _ _ B T) as T1. pose proof (newkid_wf h l k W) as W1.
    apply (below_up _ _ l (length h) k); [assumption|lia|assumption|assumption|]. eapply IH; [assumption|lia| |exact H].
    eapply tree_kid; eauto.
Qed.

(** Parameters elsewhere, and the one read, keep their meaning. *)
Lemma get_says : forall p h l j h' v q d, wf h -> l < length h -> tree h l ->
  get_val_iter h l p (PVal j) = Some (h', v) -> ~ initial p q -> ~ initial q p -> says h' l q d = says h l q d.
Proof.
  induction p as [|k r IH]; intros h l j h' v q d W L T H N1 N2; [discriminate|].
  destruct q as [|k2 q]; [exfalso; apply N2; exists (k :: r); reflexivity|]. cbn [get_val_iter] in H.
  assert (k2 = k -> ~ initial r q /\ ~ initial q r) as N.
  { intros ->. split; intros (z & ->); [apply N1|apply N2]; exists z; reflexivity. }
  destruct (entry h l k) as [[x|c|cs]|] eqn:E; [injection H as <- _; reflexivity| |injection H as <- _; reflexivity|].
  - pose proof (W _ _ _ E) as C. cbn in C. pose proof (tree_kid _ _ _ _ T E) as Tc.
    pose proof (get_below _ _ _ _ _ _ W C Tc H) as B. destruct (string_dec k2 k) as [->|Nk].
    + destruct N as [Na Nb]; [reflexivity|]. rewrite (up_says_in h h' l c k L E T B). cbn [says]. rewrite E. eapply IH; eauto.
    + now apply (up_says h h' l c k).
  - destruct r as [|k3 r].
    + injection H as <- _. destruct (string_dec k2 k) as [->|Nk]; [exfalso; apply N1; exists q; reflexivity|].
      cbn [says]. rewrite upd_other by congruence. destruct (entry h l k2) as [[x|c|cs]|] eqn:E2; try reflexivity.
      apply says_same. intros x k' X. apply upd_other. intros A. injection A as -> ->. exact (tree_self _ _ _ _ T E2 X).
    + unfold alloc in H. fold (newkid h l k) in H. pose proof (newkid_length h l k) as NL.
      pose proof (newkid_below h l k W L E) as B. pose proof (newkid_same h l k L) as E1.
      pose proof (bl_tree _ _ _ B T) as T1. pose proof (newkid_wf h l k W) as W1.
      assert (L1 : l < length (newkid h l k)) by lia. assert (C1 : length h < length (newkid h l k)) by lia.
      pose proof (get_below _ _ _ _ _ _ W1 C1 (tree_kid _ _ _ _ T1 E1) H) as B2.
      destruct (string_dec k2 k) as [->|Nk].
      * destruct N as [Na Nb]; [reflexivity|]. rewrite (up_says_in _ h' l (length h) k L1 E1 T1 B2).
        rewrite (IH _ _ _ _ _ q d W1 C1 (tree_kid _ _ _ _ T1 E1) H Na Nb). cbn [says]. rewrite E.
        destruct q as [|k4 q]; [exfalso; apply Nb; eexists; reflexivity|]. cbn [says]. now rewrite newkid_new.
      * rewrite (up_says _ h' l (length h) k W1 L1 E1 T1 B2) by assumption. cbn [says].
        rewrite newkid_some by (congruence || assumption). destruct (entry h l k2) as [[x|c|cs]|] eqn:E2; try reflexivity.
        apply says_same. intros x k' X. rewrite newkid_some; [reflexivity| |].
        -- intros A. injection A as -> ->. exact (tree_self _ _ _ _ T E2 X).
        -- destruct X as (z & Z). eapply reach_lt; [exact W| |exact Z]. exact (W _ _ _ E2).
Qed.
Lemma get_says_own : forall p h l j h' v, wf h -> l < length h -> tree h l ->
  get_val_iter h l p (PVal j) = Some (h', v) -> says h' l p (PVal j) = says h l p (PVal j).
Proof.
  intros p h l j h' v W L T H. rewrite (get_gives _ _ _ _ _ _ W L H).
  pose proof (get_below _ _ _ _ _ _ W L T H) as B.
  assert (forall s, PVal j <> PServer s) as D by discriminate.
  eapply get_gives; [apply B|pose proof (bl_len _ _ _ B); lia|]. eapply get_again; eauto.
Qed.

(** * A constructor's reads *)
Definition hier (a : string * json) := hierarchy_of (fst a).

Lemma read_all_says : forall rs h l vs, wf h -> l < length h -> tree h l -> consistent rs ->
  (forall all, incl rs all -> consistent all ->
   map (fun a => says h l (hier a) (PVal (snd a))) rs = map Some vs ->
   exists h', read_all h l rs = Some (h', vs) /\ below h h' l /\
     forall a, In a all -> says h' l (hier a) (PVal (snd a)) = says h l (hier a) (PVal (snd a))).
Proof.
  induction rs as [|[name d] rs IH]; intros h l vs W L T C all I CA M.
  - destruct vs; [|discriminate]. exists h. split; [reflexivity|]. split; [now apply below_refl|auto].
  - destruct vs as [|v vs]; [discriminate|]. cbn [map hier fst snd] in M. injection M as M1 M2.
    destruct (get_succeeds _ _ _ _ _ W L M1) as (h1 & G). cbn [read_all]. unfold get_typed. fold (hier (name, d)) in G.
    change (hierarchy_of name) with (hier (name, d)). rewrite G.
    pose proof (get_below _ _ _ _ _ _ W L T G) as B.
    assert (forall a, In a all -> says h1 l (hier a) (PVal (snd a)) = says h l (hier a) (PVal (snd a))) as K.
    { intros a A. destruct (list_eq_dec string_dec (hier a) (hier (name, d))) as [Eq|Ne].
      - assert (a = (name, d)) as ->; [|eapply get_says_own; eauto].
        symmetry. apply CA; [apply I; now left|assumption|]. unfold hier in Eq. rewrite Eq. exists []. now rewrite app_nil_r.
      - eapply get_says; [exact W|exact L|exact T|exact G| |]; intros X; apply Ne; symmetry.
        + f_equal. now apply CA; [apply I; left| |].
        + f_equal. symmetry. now apply CA; [|apply I; left|]. }
    destruct (IH h1 l vs) with (all := all) as (h2 & R2 & B2 & K2).
    + apply B.
    + pose proof (bl_len _ _ _ B). lia.
    + now apply B.
    + intros a b A A'. apply C; now right.
    + intros a A. apply I. now right.
    + assumption.
    + rewrite <- M2. apply map_ext_in. intros a A. apply K. apply I. now right.
    + rewrite R2. exists h2. split; [reflexivity|]. split; [eapply below_trans; eauto|]. intros a A. rewrite K2, K; auto.
Qed.

Lemma read_all_ok rs h l vs : wf h -> l < length h -> tree h l -> consistent rs ->
  map (fun a => says h l (hier a) (PVal (snd a))) rs = map Some vs ->
  exists h', read_all h l rs = Some (h', vs) /\ below h h' l /\
    forall a, In a rs -> says h' l (hier a) (PVal (snd a)) = says h l (hier a) (PVal (snd a)).
Proof. intros. eapply read_all_says; eauto. apply incl_refl. Qed.

(** The values all reads would give, if none names a group. *)
Lemma read_all_gives : forall rs h l h' vs, wf h -> l < length h -> tree h l -> consistent rs ->
  read_all h l rs = Some (h', vs) -> map (fun a => says h l (hier a) (PVal (snd a))) rs = map Some vs.
Proof.
  induction rs as [|[name d] rs IH]; intros h l h' vs W L T C H; cbn [read_all] in H; [now injection H as _ <-|].
  destruct (get_typed h l name (PVal d)) as [[h1 v]|] eqn:G; [|discriminate]. unfold get_typed in G.
  destruct (read_all h1 l rs) as [[h2 vs']|] eqn:R1; [|discriminate]. injection H as _ <-. cbn [map]. f_equal.
  - exact (get_gives _ _ _ _ _ _ W L G).
  - pose proof (get_below _ _ _ _ _ _ W L T G) as B. rewrite <- (IH h1 l h2 vs').
    + apply map_ext_in. intros a A. symmetry. destruct (list_eq_dec string_dec (hier a) (hierarchy_of name)) as [Eq|Ne].
      * assert (a = (name, d)) as ->; [|eapply get_says_own; eauto].
        symmetry. apply C; [now left|now right|]. cbn [fst]. unfold hier in Eq. rewrite Eq. exists []. now rewrite app_nil_r.
      * eapply get_says; [exact W|exact L|exact T|exact G| |]; intros X; apply Ne; symmetry; change (hierarchy_of name) with (hier (name, d)); f_equal.
        -- apply C; [now left|now right|exact X].
        -- symmetry. apply C; [now right|now left|exact X].
    + apply B.
    + pose proof (bl_len _ _ _ B). lia.
    + now apply B.
    + intros a b A A'. apply C; now right.
    + assumption.
Qed.

Lemma AddChild_one h l k : has_colon k = false -> k <> "" -> child h l k =
  match entry h l k with Some v => inl (h, v) | None => inl (newkid h l k, PServer (length h)) end.
Proof.
  intros C N. unfold child, AddChild. cbn [add_child]. rewrite (split_first_none k C). cbn [negb orb String.eqb].
  destruct (entry h l k); reflexivity.
Qed.

Lemma hier_ne a : hier a <> [].
Proof.
  unfold hier, hierarchy_of. destruct (String.length (fst a)); cbn; [discriminate|].
  destruct (split_first (fst a)) as [[x y]|]; discriminate.
Qed.

(** A new group says nothing: what was said about its members stays. *)
Lemma newkid_says h l k q d : wf h -> l < length h -> tree h l -> entry h l k = None -> q <> [k] ->
  says (newkid h l k) l q d = says h l q d.
Proof.
  intros W L T E N. destruct q as [|k2 q]; [reflexivity|]. cbn [says]. destruct (string_dec k2 k) as [->|Nk].
  - rewrite newkid_same, E by assumption. destruct q as [|k3 q]; [congruence|]. cbn [says]. now rewrite newkid_new.
  - rewrite newkid_some by (congruence || assumption). destruct (entry h l k2) as [[x|c|cs]|] eqn:E2; try reflexivity.
    apply says_same. intros x k' X. rewrite newkid_some; [reflexivity| |].
    + intros A. injection A as -> ->. exact (tree_self _ _ _ _ T E2 X).
    + destruct X as (z & Z). eapply reach_lt; [exact W| |exact Z]. exact (W _ _ _ E2).
Qed.

(** A server nobody refers to. *)
Lemma app_same h l : wf h -> l < length h -> forall x k, reach h l x -> entry (h ++ [[]]) x k = entry h x k.
Proof. intros W L x k (q & Q). apply entry_app. eapply reach_lt; eauto. Qed.
Lemma app_below h l : wf h -> l < length h -> below h (h ++ [[]]) l.
Proof.
  intros W L. pose proof (walk_same h (h ++ [[]]) l (app_same h l W L)) as WS. constructor.
  - now apply wf_app.
  - rewrite app_length. lia.
  - intros x k w H. now apply entry_app_some.
  - intros x k X _. now apply entry_app.
  - intros x (q & Q). left. exists q. now rewrite <- WS.
  - intros T p q x P Q. rewrite WS in P, Q. eapply T; eauto.
Qed.

Lemma stored_kept h h' : (forall l k w, entry h l k = Some w -> entry h' l k = Some w) ->
  forall p l v, (forall d, says h l p d = Some v) -> forall d, says h' l p d = Some v.
Proof.
  intros K. induction p as [|k p IH]; intros l v H d; [exact (H d)|]. cbn [says] in *.
  destruct (entry h l k) as [[x|c|cs]|] eqn:E.
  - rewrite (K _ _ _ E). exact (H d).
  - rewrite (K _ _ _ E). now apply IH.
  - rewrite (K _ _ _ E). exact (H d).
  - pose proof (H (PServer 0)) as A. rewrite <- (H (PVal (JAtom ANone))) in A. discriminate.
Qed.

(** Everything read is stored afterwards. *)
Lemma read_all_stored : forall rs h l h' vs, wf h -> l < length h -> tree h l ->
  read_all h l rs = Some (h', vs) -> below h h' l /\ forall d, map (fun a => says h' l (hier a) d) rs = map Some vs.
Proof.
  induction rs as [|[name j] rs IH]; intros h l h' vs W L T H; cbn [read_all] in H.
  - injection H as <- <-. split; [now apply below_refl|reflexivity].
  - destruct (get_typed h l name (PVal j)) as [[h1 v]|] eqn:G; [|discriminate]. unfold get_typed in G.
    destruct (read_all h1 l rs) as [[h2 vs']|] eqn:R1; [|discriminate]. injection H as <- <-.
    pose proof (get_below _ _ _ _ _ _ W L T G) as B. pose proof (bl_len _ _ _ B) as LE. assert (L1 : l < length h1) by lia.
    destruct (IH h1 l h2 vs' (bl_wf _ _ _ B) L1 (bl_tree _ _ _ B T) R1) as [B2 S2]. split; [eapply below_trans; eauto|].
    intros d. cbn [map]. f_equal; [|apply S2]. apply (stored_kept h1 h2 (bl_keep _ _ _ B2)).
    intros d'. eapply get_gives; [apply B|assumption|]. apply (get_again _ h l (PVal j) h1 v L W); [discriminate|exact G].
Qed.

Section Build.
Variable classes : string -> option (list (string * json)).

Lemma build_says h ty l rs vs : wf h -> l < length h -> tree h l -> classes ty = Some rs -> consistent rs ->
  map (fun a => says h l (hier a) (PVal (snd a))) rs = map Some vs ->
  exists h', build_model classes h ty (PServer l) = inl (h', mkBuilt ty l vs) /\ below h h' l /\
    (forall a, In a rs -> says h' l (hier a) (PVal (snd a)) = says h l (hier a) (PVal (snd a))) /\
    forall d, map (fun a => says h' l (hier a) d) rs = map Some vs.
Proof.
  intros W L T K C M. destruct (read_all_ok rs h l vs W L T C M) as (h' & A & B & S). exists h'. unfold build_model. rewrite K, A.
  split; [reflexivity|]. split; [assumption|]. split; [assumption|]. eapply read_all_stored; eauto.
Qed.

Lemma build_n_says rs vs ty l : classes ty = Some rs -> consistent rs -> forall n h, wf h -> l < length h -> tree h l ->
  map (fun a => says h l (hier a) (PVal (snd a))) rs = map Some vs ->
  exists h', build_n classes n h ty (PServer l) = inl (h', repeat (mkBuilt ty l vs) n) /\ below h h' l /\
    (forall a, In a rs -> says h' l (hier a) (PVal (snd a)) = says h l (hier a) (PVal (snd a))) /\
    (n <> 0 -> forall d, map (fun a => says h' l (hier a) d) rs = map Some vs).
Proof.
  intros K C. induction n as [|n IH]; intros h W L T M; cbn [build_n repeat].
  - exists h. split; [reflexivity|]. split; [now apply below_refl|]. split; [reflexivity|congruence].
  - destruct (build_says h ty l rs vs W L T K C M) as (h1 & A & B & S & St). rewrite A. pose proof (bl_len _ _ _ B).
    assert (L1 : l < length h1) by lia.
    destruct (IH h1 (bl_wf _ _ _ B) L1 (bl_tree _ _ _ B T)) as (h2 & A2 & B2 & S2 & St2).
    + rewrite <- M. apply map_ext_in. exact S.
    + rewrite A2. exists h2. split; [reflexivity|]. split; [eapply below_trans; eauto|]. split; [intros a I; rewrite S2, S by assumption; reflexivity|].
      intros _ d. pose proof (St d) as Q. clear - Q B2 St. assert (forall v a, In (a, v) (combine rs vs) -> True) by auto.
      assert (forall rs' vs', (forall d, map (fun a => says h1 l (hier a) d) rs' = map Some vs') -> map (fun a => says h2 l (hier a) d) rs' = map Some vs') as X.
      { induction rs' as [|a rs' IH]; intros vs' Hs; destruct vs' as [|v vs']; try reflexivity; try (specialize (Hs d); discriminate).
        cbn [map]. f_equal.
        - apply (stored_kept h1 h2 (bl_keep _ _ _ B2)). intros d'. specialize (Hs d'). cbn [map] in Hs. now injection Hs.
        - apply IH. intros d'. specialize (Hs d'). cbn [map] in Hs. now injection Hs. }
      now apply X.
Qed.

(** One child [ty] of [m] and a model made of it ([ext]: an unused server is made between). *)
Lemma build_child h m ty rs vs (ext : bool) : wf h -> m < length h -> tree h m -> has_colon ty = false -> ty <> "" ->
  classes ty = Some rs -> consistent rs ->
  (entry h m ty = None \/ exists c, entry h m ty = Some (PServer c)) ->
  map (fun a => says h m (ty :: hier a) (PVal (snd a))) rs = map Some vs ->
  exists h1 h2 c, child h m ty = inl (h1, PServer c) /\
    build_model classes (if ext then h1 ++ [[]] else h1) ty (PServer c) = inl (h2, mkBuilt ty c vs) /\
    below h h2 m /\ entry h2 m ty = Some (PServer c) /\
    (forall k, k <> ty -> entry h2 m k = entry h m k /\ forall q d, says h2 m (k :: q) d = says h m (k :: q) d) /\
    (forall a, In a rs -> says h2 m (ty :: hier a) (PVal (snd a)) = says h m (ty :: hier a) (PVal (snd a))) /\
    (forall d, map (fun a => says h2 c (hier a) d) rs = map Some vs).
Proof.
  intros W L T NC NE K C Q M. rewrite (AddChild_one h m ty NC NE).
  assert (exists h1 c, match entry h m ty with Some v => inl (h, v) | None => inl (newkid h m ty, PServer (length h)) end
             = (inl (h1, PServer c) : gres (heap * pv)) /\ below h h1 m /\ entry h1 m ty = Some (PServer c) /\
             (forall k, k <> ty -> entry h1 m k = entry h m k) /\
             forall q d, q <> [ty] -> says h1 m q d = says h m q d) as (h1 & c & E1 & B1 & C1 & Y1 & S1).
  { destruct Q as [E|(c & E)]; rewrite E.
    - exists (newkid h m ty), (length h). split; [reflexivity|]. split; [now apply newkid_below|]. split; [now apply newkid_same|].
      split; [|intros; now apply newkid_says]. intros k N. apply newkid_some; [congruence|assumption].
    - exists h, c. split; [reflexivity|]. split; [now apply below_refl|]. auto. }
  set (g := if ext then h1 ++ [[]] else h1).
  assert (L1 : m < length h1) by (pose proof (bl_len _ _ _ B1); lia).
  assert (below h1 g m /\ (forall x k, reach h1 m x -> entry g x k = entry h1 x k)) as (Bg & Sg).
  { unfold g. destruct ext; [split; [apply app_below|apply app_same]; [apply B1|assumption|apply B1|assumption]|].
    split; [apply below_refl; apply B1|reflexivity]. }
  assert (Bh : below h g m) by (eapply below_trans; eauto).
  assert (Lg : m < length g) by (pose proof (bl_len _ _ _ Bg); lia).
  assert (Cg : entry g m ty = Some (PServer c)) by (rewrite Sg by apply reach_refl; assumption).
  pose proof (bl_tree _ _ _ Bh T) as Tg. pose proof (bl_wf _ _ _ Bh) as Wg. pose proof (Wg _ _ _ Cg) as cl. cbn in cl.
  assert (Gs : forall q d, q <> [ty] -> says g m q d = says h m q d).
  { intros q d N. rewrite (says_same h1 g m Sg). now apply S1. }
  destruct (build_says g ty c rs vs Wg cl (tree_kid _ _ _ _ Tg Cg) K C) as (h2 & Bu & B2 & S2 & St).
  { rewrite <- M. apply map_ext_in. intros a I. rewrite <- (Gs (ty :: hier a)).
    - cbn [says]. now rewrite Cg.
    - intros X. injection X as X. exact (hier_ne _ X). }
  exists h1, h2, c. split; [exact E1|]. split; [exact Bu|].
  split; [eapply below_trans; [assumption|exact Bh|]; eapply below_up; eauto|].
  split; [rewrite (up_here g h2 m c ty Lg Cg Tg B2); assumption|]. split; [|split; [|exact St]].
  - intros k N. split.
    + rewrite (up_here g h2 m c ty Lg Cg Tg B2). rewrite Sg by apply reach_refl. now apply Y1.
    + intros q d. rewrite (up_says g h2 m c ty Wg Lg Cg Tg B2) by assumption. apply Gs. congruence.
  - intros a I. rewrite (up_says_in g h2 m c ty Lg Cg Tg B2). rewrite S2 by assumption.
    rewrite <- (Gs (ty :: hier a)).
    + cbn [says]. now rewrite Cg.
    + intros X. injection X as X. exact (hier_ne _ X).
Qed.
End Build.
