From Coq Require Import List NArith QArith Bool Arith Lia.
From Verif Require Import Model_Map Proof_Map Model_Heap Spec_Heap.
Import ListNotations.
Local Open Scope nat_scope.

Section Proof.
  Context {D H : Type} (copy : D -> D).
  Notation heap := (heap D H).
  Notation hget := (hget D H).
  Notation hset := (hset D H).
  Notation CModel := (CModel D H).
  Notation CAgent := (CAgent D H).

  Lemma hset_length h l c : length (hset h l c) = length h.
  Proof. revert l; induction h as [|x r IH]; intros [|l]; cbn; congruence. Qed.
  Lemma hget_hset_same h l c : l < length h -> hget (hset h l c) l = Some c.
  Proof. revert l; induction h as [|x r IH]; intros [|l]; cbn; intros Hl; try lia; [reflexivity|]. apply IH; lia. Qed.
  Lemma hget_hset_other h l l' c : l <> l' -> hget (hset h l c) l' = hget h l'.
  Proof. revert l l'; induction h as [|x r IH]; intros [|l] [|l']; cbn; intros Hl; try congruence. apply IH; lia. Qed.
  Lemma hget_lt h l c : hget h l = Some c -> l < length h.
  Proof. intros E. apply nth_error_Some. unfold Model_Heap.hget in E. congruence. Qed.
  Lemma hget_app_l h c l : l < length h -> hget (h ++ [c]) l = hget h l.
  Proof. intros L. apply nth_error_app1, L. Qed.
  Lemma hget_app_new h c : hget (h ++ [c]) (length h) = Some c.
  Proof. unfold Model_Heap.hget. rewrite nth_error_app2, Nat.sub_diag by lia. reflexivity. Qed.

  Variable h0 : heap.
  Variable S : loc -> Prop.
  Notation n0 := (length h0).
  Hypothesis S_inner : forall l, inner h0 l -> S l.

  Definition ok (l : loc) : Prop := n0 <= l \/ S l.
  Definition cell_ok (c : cell D H) : Prop :=
    match c with
    | Model_Heap.CModel _ _ _ subs => Forall ok subs
    | Model_Heap.CAgent _ _ a => ok (ha_bm H a) /\ ok (ha_em H a)
    end.
  Record HInv (h : heap) : Prop := {
    hi_len : n0 <= length h;
    hi_same : forall l, l < n0 -> ~ S l -> hget h l = hget h0 l;
    hi_subs : forall l d subs, l < n0 -> hget h l = Some (CModel d subs) -> exists d0, hget h0 l = Some (CModel d0 subs);
    hi_ok : forall l c, n0 <= l -> hget h l = Some c -> cell_ok c }.

  Lemma HI_init : HInv h0.
  Proof.
    split; [lia|reflexivity|eauto|]. intros l c L E. apply hget_lt in E. lia.
  Qed.

  Lemma HI_subs h l d subs : HInv h -> hget h l = Some (CModel d subs) -> Forall ok subs.
  Proof.
    intros HI E. destruct (le_lt_dec n0 l) as [L|L].
    - exact (hi_ok _ HI l _ L E).
    - destruct (hi_subs _ HI l d subs L E) as [d0 E0]. apply Forall_forall. intros s Hs.
      right. apply S_inner. exists l, d0, subs. auto.
  Qed.

  Lemma HI_alloc h c : HInv h -> cell_ok c -> HInv (h ++ [c]).
  Proof.
    intros [H1 H2 H3 H4] Hc. split.
    - rewrite app_length; lia.
    - intros l L Hs. rewrite hget_app_l by lia. auto.
    - intros l d subs L E. rewrite hget_app_l in E by lia. eauto.
    - intros l c' L E. assert (Hlt := hget_lt _ _ _ E). rewrite app_length in Hlt; cbn in Hlt.
      destruct (Nat.eq_dec l (length h)) as [->|Hne].
      + rewrite hget_app_new in E. now injection E as <-.
      + rewrite hget_app_l in E by lia. eauto.
  Qed.

  Lemma HI_wr h l f : HInv h -> ok l -> HInv (wr_model D H h l f).
  Proof.
    intros HI Ho. unfold wr_model. destruct (Model_Heap.hget D H h l) as [[d subs|a]|] eqn:E; [|exact HI|exact HI].
    assert (Hl := hget_lt _ _ _ E). pose proof (HI_subs _ _ _ _ HI E) as Hsubs.
    destruct HI as [H1 H2 H3 H4]. split.
    - rewrite hset_length; exact H1.
    - intros x L Hs. rewrite hget_hset_other; [auto|]. intros ->. destruct Ho; [lia|contradiction].
    - intros x d' subs' L Ex. destruct (Nat.eq_dec l x) as [->|Hne].
      + rewrite hget_hset_same in Ex by exact Hl. injection Ex as <- <-. eauto.
      + rewrite hget_hset_other in Ex by exact Hne. eauto.
    - intros x c L Ex. destruct (Nat.eq_dec l x) as [->|Hne].
      + rewrite hget_hset_same in Ex by exact Hl. injection Ex as <-. exact Hsubs.
      + rewrite hget_hset_other in Ex by exact Hne. eauto.
  Qed.

  Lemma HI_set_agent h l a : HInv h -> n0 <= l -> ok (ha_bm H a) -> ok (ha_em H a) -> HInv (hset h l (CAgent a)).
  Proof.
    intros [H1 H2 H3 H4] Hn Hb He. split.
    - rewrite hset_length; exact H1.
    - intros x L Hs. rewrite hget_hset_other by lia. auto.
    - intros x d subs L E. rewrite hget_hset_other in E by lia. eauto.
    - intros x c L E. destruct (Nat.eq_dec l x) as [->|Hne].
      + assert (Hl := hget_lt _ _ _ E). rewrite hset_length in Hl.
        rewrite hget_hset_same in E by exact Hl. injection E as <-. split; assumption.
      + rewrite hget_hset_other in E by exact Hne. eauto.
  Qed.

  Lemma HI_clone_model h l : HInv h -> HInv (fst (clone_model D H copy h l)) /\ length h <= length (fst (clone_model D H copy h l)).
  Proof.
    intros HI. unfold clone_model. destruct (Model_Heap.hget D H h l) as [[d subs|a]|] eqn:E; [|split; [exact HI|reflexivity]..].
    cbn. split; [apply HI_alloc; [exact HI|exact (HI_subs _ _ _ _ HI E)]|rewrite app_length; lia].
  Qed.
  (* the clone is either new or the unchanged pointer *)
  Lemma clone_model_loc h l : HInv h -> n0 <= snd (clone_model D H copy h l) \/ snd (clone_model D H copy h l) = l.
  Proof.
    intros HI. unfold clone_model. destruct (Model_Heap.hget D H h l) as [[d subs|a]|] eqn:E; cbn; auto.
    left. exact (hi_len _ HI).
  Qed.
  Lemma clone_model_new h l : HInv h -> is_model h l -> n0 <= snd (clone_model D H copy h l).
  Proof.
    intros HI (d & subs & E). unfold clone_model. rewrite E. cbn. exact (hi_len _ HI).
  Qed.
  Lemma clone_model_keeps h l x : x < length h -> hget (fst (clone_model D H copy h l)) x = hget h x.
  Proof.
    intros L. unfold clone_model. destruct (Model_Heap.hget D H h l) as [[d subs|a]|] eqn:E; cbn; auto.
    apply hget_app_l, L.
  Qed.
  Lemma clone_model_len h l : length h <= length (fst (clone_model D H copy h l)).
  Proof.
    unfold clone_model. destruct (Model_Heap.hget D H h l) as [[d subs|a]|]; cbn; try lia. rewrite app_length; lia.
  Qed.

  Lemma clone_opt_inv h o : HInv h -> HInv (fst (clone_opt D H copy h o)) /\ length h <= length (fst (clone_opt D H copy h o)) /\
    (forall x, x < length h -> hget (fst (clone_opt D H copy h o)) x = hget h x).
  Proof.
    intros HI. destruct o as [l|]; cbn; [|split; [exact HI|split; [lia|reflexivity]]].
    split; [apply HI_clone_model, HI|]. split; [apply clone_model_len|]. intros x L; apply clone_model_keeps, L.
  Qed.

  (* generic facts about cloning one agent *)
  Lemma hclone_agent_inv h l : HInv h ->
    (forall a, hget h l = Some (CAgent a) ->
       (ok (ha_bm H a) \/ is_model h (ha_bm H a)) /\ (ok (ha_em H a) \/ is_model h (ha_em H a))) ->
    let r := hclone_agent D H copy h l in
    HInv (fst r) /\ length h <= length (fst r) /\
    (forall x, x < length h -> hget (fst r) x = hget h x) /\
    (n0 <= l \/ (exists a, hget h l = Some (CAgent a)) -> n0 <= snd r).
  Proof.
    intros HI Ha r. unfold r, hclone_agent.
    destruct (Model_Heap.hget D H h l) as [[d subs|a]|] eqn:E.
    1,3: split; [exact HI|]; split; [reflexivity|]; split; [reflexivity|]; cbn; intros [L|[a' E']]; [exact L|congruence].
    specialize (Ha a eq_refl). destruct Ha as [Hb He].
    set (r1 := clone_model D H copy h (ha_bm H a)). set (r2 := clone_model D H copy (fst r1) (ha_dm H a)).
    set (r3 := clone_model D H copy (fst r2) (ha_em H a)). set (r4 := clone_opt D H copy (fst r3) (ha_goal H a)).
    assert (I1 : HInv (fst r1)) by (apply HI_clone_model, HI).
    assert (I2 : HInv (fst r2)) by (apply HI_clone_model, I1).
    assert (I3 : HInv (fst r3)) by (apply HI_clone_model, I2).
    destruct (clone_opt_inv (fst r3) (ha_goal H a) I3) as (I4 & L4 & K4). fold r4 in I4, L4, K4.
    assert (L1 : length h <= length (fst r1)) by apply clone_model_len.
    assert (L2 : length (fst r1) <= length (fst r2)) by apply clone_model_len.
    assert (L3 : length (fst r2) <= length (fst r3)) by apply clone_model_len.
    assert (K12 : forall x, x < length h -> hget (fst r2) x = hget h x).
    { intros x L. unfold r2, r1. rewrite !clone_model_keeps; auto. fold r1; lia. }
    assert (Hok_b : ok (snd r1)).
    { destruct Hb as [Hb|Hb].
      - destruct (clone_model_loc h (ha_bm H a) HI) as [X|X]; fold r1 in X; [now left|rewrite X; exact Hb].
      - left. apply clone_model_new; assumption. }
    assert (Hok_e : ok (snd r3)).
    { destruct He as [He|(d & subs & He)].
      - destruct (clone_model_loc (fst r2) (ha_em H a) I2) as [X|X]; fold r3 in X; [now left|rewrite X; exact He].
      - left. apply clone_model_new; [assumption|]. exists d, subs. rewrite K12; [exact He|exact (hget_lt _ _ _ He)]. }
    cbn [fst snd alloc]. split; [apply HI_alloc; [exact I4|split; assumption]|].
    split; [rewrite app_length; lia|]. split.
    - intros x L. rewrite hget_app_l by lia. rewrite K4 by lia. unfold r3. rewrite clone_model_keeps by lia. auto.
    - intros _. pose proof (hi_len _ I4). lia.
  Qed.

  Lemma clone_all_models h m : HInv h -> HInv (fst (clone_all D H (clone_model D H copy) h m)).
  Proof.
    revert h; induction m as [|[k l] r IH]; intros h HI; cbn; [exact HI|].
    apply IH. apply HI_clone_model, HI.
  Qed.

  (* cloning the agents of a table: [good] holds of every source *)
  Lemma clone_all_agents m : forall h, HInv h ->
    (forall k l, In (k, l) m -> (n0 <= l) \/
       (exists a, hget h l = Some (CAgent a) /\ is_model h (ha_bm H a) /\ is_model h (ha_em H a))) ->
    HInv (fst (clone_all D H (hclone_agent D H copy) h m)) /\
    Forall (fun p : N * loc => n0 <= snd p) (snd (clone_all D H (hclone_agent D H copy) h m)).
  Proof.
    induction m as [|[k l] r IH]; intros h HI0 Hsrc; cbn [clone_all fst snd]; [split; [exact HI0|constructor]|].
    destruct (hclone_agent_inv h l HI0) as (I1 & L1 & K1 & N1).
    { intros a E. destruct (Hsrc k l (or_introl eq_refl)) as [L|(a' & E' & Hb & He)].
      - destruct (hi_ok _ HI0 l _ L E) as [X Y]. auto.
      - rewrite E' in E; injection E as <-. auto. }
    destruct (IH (fst (hclone_agent D H copy h l)) I1) as [I2 F2].
    { intros k' l' Hin. destruct (Hsrc k' l' (or_intror Hin)) as [L|(a & E & (d1 & s1 & Hb) & (d2 & s2 & He))]; [now left|].
      right. exists a. split; [rewrite K1; [exact E|exact (hget_lt _ _ _ E)]|].
      split; eexists; eexists; (rewrite K1; [eassumption|eapply hget_lt; eassumption]). }
    split; [exact I2|]. constructor; [|exact F2]. cbn [snd]. apply N1.
    destruct (Hsrc k l (or_introl eq_refl)) as [L|(a & E & _)]; eauto.
  Qed.

  Definition WI (w : hworld) : Prop :=
    Forall (fun p : N * loc => n0 <= snd p) (hw_agents w) /\ ok (hw_observer w) /\ Forall ok (hw_evals w).

  Lemma plan_model_inv R cw id dt fuel : forall h l, HInv h -> ok l -> HInv (plan_model D H R cw id dt fuel h l).
  Proof.
    induction fuel as [|n IH]; intros h l HI Hl; cbn; [exact HI|].
    destruct (Model_Heap.hget D H h l) as [[d subs|a]|] eqn:E; [|exact HI|exact HI].
    apply HI_wr; [|exact Hl].
    pose proof (HI_subs _ _ _ _ HI E) as Hs. clear E. revert h HI; induction Hs as [|s r Hs1 Hs2 IHs]; intros h HI; cbn; [exact HI|].
    apply IHs. apply IH; assumption.
  Qed.

  Lemma hplan_inv R cw t dt fuel h (p : N * loc) : HInv h -> ok (hw_observer cw) -> n0 <= snd p -> HInv (hplan_agent D H R cw t dt fuel h p).
  Proof.
    intros HI Ho Hp. unfold hplan_agent. destruct (Model_Heap.hget D H h (snd p)) as [[d subs|a]|] eqn:E; [exact HI| |exact HI].
    destruct (hi_ok _ HI _ _ Hp E) as [Hb He]. destruct (o_goes D H R h cw (fst p)); [|exact HI].
    set (h1 := plan_model D H R cw (fst p) dt fuel _ _).
    assert (I1 : HInv h1) by (apply plan_model_inv; [apply HI_wr; assumption|exact Hb]).
    destruct (payload D H h1 (ha_bm H a)); [|exact I1]. destruct (payload D H h1 (ha_dm H a)); [|exact I1].
    apply HI_wr; assumption.
  Qed.

  Lemma hexec_inv R h (p : N * loc) : HInv h -> n0 <= snd p -> HInv (hexec_agent D H R h p).
  Proof.
    intros HI Hp. unfold hexec_agent. destruct (Model_Heap.hget D H h (snd p)) as [[d subs|a]|] eqn:E; [exact HI| |exact HI].
    destruct (hi_ok _ HI _ _ Hp E) as [Hb He].
    destruct (payload D H h (ha_bm H a)); [|exact HI]. destruct (payload D H h (ha_em H a)); [|exact HI].
    destruct (o_moves D H R _ _); [|exact HI]. apply HI_set_agent; cbn; assumption.
  Qed.

  Lemma fold_inv {A} (f : heap -> A -> heap) (P : A -> Prop) l h :
    (forall h a, HInv h -> P a -> HInv (f h a)) -> HInv h -> Forall P l -> HInv (fold_left f l h).
  Proof.
    intros Hf HI HF. revert h HI; induction HF as [|a r Ha Hr IH]; intros h HI; cbn; [exact HI|].
    apply IH, Hf; assumption.
  Qed.

  Lemma clone_world_inv h w : HInv h -> WI w -> HInv (fst (hclone_world D H copy h w)) /\ WI (snd (hclone_world D H copy h w)).
  Proof.
    intros HI0 (W1 & W2 & W3). unfold hclone_world.
    destruct (clone_all_agents (hw_agents w) h HI0) as [I1 F1].
    { intros k l Hin. left. rewrite Forall_forall in W1. exact (W1 _ Hin). }
    cbn [fst snd]. split; [apply clone_all_models, I1|]. split; [exact F1|split; assumption].
  Qed.

  Lemma m_erase_Forall {V} (P : N * V -> Prop) k m : Forall P m -> Forall P (m_erase k m).
  Proof.
    intros HF. apply Forall_forall. intros x Hx. rewrite Forall_forall in HF. apply HF.
    unfold m_erase in Hx. apply filter_In in Hx. tauto.
  Qed.
  Lemma m_insert_Forall {V} (P : N * V -> Prop) k v m : P (k, v) -> Forall P m -> Forall P (m_insert k v m).
  Proof.
    intros Hk HF. induction HF as [|[k' v'] r H1 H2 IH]; cbn; [repeat constructor; exact Hk|].
    repeat match goal with |- context [if ?b then _ else _] => destruct b end; repeat constructor; auto.
  Qed.

  Lemma hrun_op_inv h w op : HInv h -> WI w ->
    (forall id l, op = HSetBehavior D H id l -> S l) ->
    HInv (fst (hrun_op D H copy h w op)) /\ WI (snd (hrun_op D H copy h w op)).
  Proof.
    intros HI0 W0 Hop. pose proof W0 as (W1 & W2 & W3). destruct op as [R dt fuel|R|id|id bm dm em goal hist mh|id f|id lb]; cbn [hrun_op].
    - unfold hstep. destruct (clone_world_inv h w HI0 W0) as [I1 _].
      set (c := hclone_world D H copy h w) in *. cbn [fst snd]. split.
      + apply (fold_inv _ (fun p : N * loc => n0 <= snd p)); [intros; apply hexec_inv; assumption| |exact W1].
        apply (fold_inv _ (fun p : N * loc => n0 <= snd p)); [|exact I1|exact W1].
        intros h' p Hh Hp. apply hplan_inv; auto.
      + split; [|split; assumption]. cbn. apply Forall_forall. intros x Hx. apply filter_In in Hx as [Hx _].
        rewrite Forall_forall in W1. auto.
    - split; [|exact W0]. cbn [fst]. apply (fold_inv _ ok); [intros; apply HI_wr; assumption|exact HI0|exact W3].
    - split; [exact HI0|]. split; [|split; assumption]. cbn. apply m_erase_Forall, W1.
    - unfold alloc. cbn [fst snd]. pose proof (hi_len _ HI0) as Hn.
      set (h1 := h ++ [CModel bm []]). set (h2 := h1 ++ [CModel dm []]). set (h3 := h2 ++ [CModel em []]).
      assert (I1 : HInv h1) by (apply HI_alloc; [exact HI0|constructor]).
      assert (I2 : HInv h2) by (apply HI_alloc; [exact I1|constructor]).
      assert (I3 : HInv h3) by (apply HI_alloc; [exact I2|constructor]).
      assert (L1 : n0 <= length h1) by apply (hi_len _ I1). assert (L2 : n0 <= length h2) by apply (hi_len _ I2).
      set (r4 := match goal with None => _ | Some g => _ end).
      assert (I4 : HInv (fst r4)) by (unfold r4; destruct goal; cbn; [apply HI_alloc; [exact I3|constructor]|exact I3]).
      split; [apply HI_alloc; [exact I4|split; left; assumption]|].
      split; [|split; assumption]. cbn. apply m_insert_Forall; [exact (hi_len _ I4)|exact W1].
    - split; [|exact W0]. cbn [fst]. destruct (m_find id (hw_agents w)) as [l|] eqn:E; [|exact HI0].
      apply m_find_In in E. rewrite Forall_forall in W1. specialize (W1 _ E). cbn in W1.
      destruct (Model_Heap.hget D H h l) as [[d subs|a]|] eqn:E2; [exact HI0| |exact HI0].
      destruct (hi_ok _ HI0 _ _ W1 E2) as [Hb He]. apply HI_wr; assumption.
    - split; [|exact W0]. cbn [fst]. destruct (m_find id (hw_agents w)) as [l|] eqn:E; [|exact HI0].
      apply m_find_In in E. rewrite Forall_forall in W1. specialize (W1 _ E). cbn in W1.
      destruct (Model_Heap.hget D H h l) as [[d subs|a]|] eqn:E2; [exact HI0| |exact HI0].
      destruct (hi_ok _ HI0 _ _ W1 E2) as [Hb He]. apply HI_set_agent; cbn; [assumption|assumption| |assumption].
      right. exact (Hop id lb eq_refl).
  Qed.

  Lemma hrun_inv ops : forall h w, HInv h -> WI w ->
    (forall id l, In (HSetBehavior D H id l) ops -> S l) ->
    HInv (fst (hrun D H copy h w ops)).
  Proof.
    induction ops as [|op r IH]; intros h w Hh Hw Hops; cbn; [exact Hh|].
    destruct (hrun_op_inv h w op Hh Hw) as [I1 W1].
    { intros id l ->. apply (Hops id l). now left. }
    apply IH; [exact I1|exact W1|]. intros id l Hin. apply (Hops id l). now right.
  Qed.

  Lemma clone_init w : hwf h0 w -> S (hw_observer w) -> (forall l, In l (hw_evals w) -> S l) ->
    HInv (fst (hclone_world D H copy h0 w)) /\ WI (snd (hclone_world D H copy h0 w)).
  Proof.
    intros (Wa & Wo & We & Wob) Ho He. unfold hclone_world.
    destruct (clone_all_agents (hw_agents w) h0 HI_init) as [I1 F1].
    { intros k l Hin. right. destruct (Wa k l Hin) as (a & E & _ & Hb & _ & Hem & _). eauto. }
    cbn [fst snd]. split; [apply clone_all_models, I1|]. split; [exact F1|].
    split; [right; exact Ho|]. apply Forall_forall. intros x Hx. right. auto.
  Qed.
End Proof.

Lemma isolation {D H : Type} (copy : D -> D) (h : heap D H) w ops :
  hwf h w ->
  let c := hclone_world D H copy h w in
  let r := hrun D H copy (fst c) (snd c) ops in
  forall l, l < length h -> ~ shared h w ops l -> hget D H (fst r) l = hget D H h l.
Proof.
  intros Hwf c r l Hl Hs.
  assert (HS : forall x, inner h x -> shared h w ops x) by (intros x Hx; right; right; left; exact Hx).
  destruct (clone_init copy h (shared h w ops) HS w Hwf) as [I1 W1].
  { now left. }
  { intros x Hx; right; now left. }
  assert (I2 : HInv h (shared h w ops) (fst r)).
  { apply hrun_inv; [exact HS|exact I1|exact W1|]. intros id x Hin. right; right; right. exists id; exact Hin. }
  exact (hi_same _ _ _ I2 l Hl Hs).
Qed.
