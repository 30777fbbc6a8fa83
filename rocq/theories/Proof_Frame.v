(* Frame of the operations of Model_Heap: a set P of objects that nothing outside P points to and that
   the world does not mention is left alone by everything done to the world. *)
From Coq Require Import List NArith QArith Bool Arith Lia.
From Verif Require Import Model_Map Proof_Map Model_Heap Spec_Heap Proof_Heap Model_Runtime.
Import ListNotations.
Local Open Scope nat_scope.

Section Frame.
  Context {D H : Type} (copy : D -> D).
  Notation heap := (heap D H).
  Notation hget := (hget D H).
  Notation hset := (hset D H).
  Notation CModel := (CModel D H).
  Notation CAgent := (CAgent D H).

  (* the references an object holds *)
  Definition ptrs (c : cell D H) : list loc :=
    match c with
    | Model_Heap.CModel _ _ _ subs => subs
    | Model_Heap.CAgent _ _ a =>
        ha_bm H a :: ha_dm H a :: ha_em H a :: match ha_goal H a with Some g => [g] | None => [] end
    end.

  Variable P : loc -> Prop.
  Variable h0 : heap.
  Hypothesis P_old : forall l, P l -> l < length h0.

  Definition away (l : list loc) : Prop := forall x, In x l -> ~ P x.

  Record Safe (h : heap) : Prop := {
    sf_len : length h0 <= length h;
    sf_same : forall l, P l -> hget h l = hget h0 l;
    sf_away : forall l c, ~ P l -> hget h l = Some c -> away (ptrs c) }.

  Definition Away (w : hworld) : Prop :=
    away (map snd (hw_agents w)) /\ away (map snd (hw_objects w)) /\ away (hw_evals w) /\ ~ P (hw_observer w).

  Lemma S_alloc h c : Safe h -> away (ptrs c) -> Safe (h ++ [c]) /\ ~ P (length h).
  Proof.
    intros [L S W] Hc.
    assert (Nn : ~ P (length h)) by (intros Hp; apply P_old in Hp; lia).
    split; [|exact Nn]. split.
    - rewrite app_length; lia.
    - intros l Hl. rewrite hget_app_l by (apply P_old in Hl; lia). auto.
    - intros l c' Nl E. destruct (Nat.lt_ge_cases l (length h)) as [Ll|Ll].
      + rewrite hget_app_l in E by exact Ll. eauto.
      + assert (l = length h). { apply hget_lt in E. rewrite app_length in E. cbn in E. lia. }
        subst l. rewrite hget_app_new in E. injection E as <-. exact Hc.
  Qed.

  Lemma S_set h l c : Safe h -> ~ P l -> away (ptrs c) -> Safe (hset h l c).
  Proof.
    intros [L S W] Nl Hc. split.
    - now rewrite hset_length.
    - intros x Hx. rewrite hget_hset_other by (intros ->; auto). auto.
    - intros x c' Nx E. destruct (Nat.eq_dec l x) as [<-|Ne].
      + assert (Lx := hget_lt _ _ _ E). rewrite hset_length in Lx.
        rewrite hget_hset_same in E by exact Lx. injection E as <-. exact Hc.
      + rewrite hget_hset_other in E by exact Ne. eauto.
  Qed.

  Lemma S_wr h l f : Safe h -> ~ P l -> Safe (wr_model D H h l f).
  Proof.
    intros HS Nl. unfold wr_model. destruct (Model_Heap.hget D H h l) as [[d subs|a]|] eqn:E; auto.
    apply S_set; auto. exact (sf_away _ HS l _ Nl E).
  Qed.

  Lemma S_clone_model h l : Safe h -> ~ P l ->
    Safe (fst (clone_model D H copy h l)) /\ ~ P (snd (clone_model D H copy h l)).
  Proof.
    intros HS Nl. unfold clone_model. destruct (Model_Heap.hget D H h l) as [[d subs|a]|] eqn:E; cbn; auto.
    apply S_alloc; auto. exact (sf_away _ HS l _ Nl E).
  Qed.

  Lemma S_clone_opt h o : Safe h -> away (match o with Some g => [g] | None => [] end) ->
    Safe (fst (clone_opt D H copy h o)) /\
    away (match snd (clone_opt D H copy h o) with Some g => [g] | None => [] end).
  Proof.
    intros HS Ho. destruct o as [g|]; cbn; [|split; [exact HS|intros x []]].
    destruct (S_clone_model h g HS) as [H1 H2]; [apply Ho; now left|].
    split; [exact H1|]. intros x [<-|[]]. exact H2.
  Qed.

  Lemma S_clone_agent h l : Safe h -> ~ P l ->
    Safe (fst (hclone_agent D H copy h l)) /\ ~ P (snd (hclone_agent D H copy h l)).
  Proof.
    intros HS Nl. unfold hclone_agent. destruct (Model_Heap.hget D H h l) as [[d subs|a]|] eqn:E; [auto| |auto].
    pose proof (sf_away _ HS l _ Nl E) as Ha. cbn [ptrs] in Ha.
    destruct (S_clone_model h (ha_bm H a) HS) as [S1 N1]; [apply Ha; cbn; auto|].
    set (r1 := clone_model D H copy h (ha_bm H a)) in *.
    destruct (S_clone_model (fst r1) (ha_dm H a) S1) as [S2 N2]; [apply Ha; cbn; auto|].
    set (r2 := clone_model D H copy (fst r1) (ha_dm H a)) in *.
    destruct (S_clone_model (fst r2) (ha_em H a) S2) as [S3 N3]; [apply Ha; cbn; auto|].
    set (r3 := clone_model D H copy (fst r2) (ha_em H a)) in *.
    destruct (S_clone_opt (fst r3) (ha_goal H a) S3) as [S4 N4].
    { intros x Hx. apply Ha. cbn. auto. }
    set (r4 := clone_opt D H copy (fst r3) (ha_goal H a)) in *. cbv zeta. unfold alloc. cbn [fst snd].
    apply S_alloc; [exact S4|]. cbn [ptrs ha_bm ha_dm ha_em ha_goal].
    intros x [<-|[<-|[<-|Hx]]]; auto.
  Qed.

  Lemma S_clone_all (f : heap -> loc -> heap * loc) m :
    (forall h l, Safe h -> ~ P l -> Safe (fst (f h l)) /\ ~ P (snd (f h l))) ->
    forall h, Safe h -> away (map snd m) ->
    Safe (fst (clone_all D H f h m)) /\ away (map snd (snd (clone_all D H f h m))).
  Proof.
    intros Hf. induction m as [|[k l] r IH]; intros h HS Hm; cbn; [split; [exact HS|intros x []]|].
    destruct (Hf h l HS) as [S1 N1]; [apply Hm; cbn; auto|].
    destruct (IH (fst (f h l)) S1) as [S2 N2]; [intros x Hx; apply Hm; cbn; auto|].
    split; [exact S2|]. intros x [<-|Hx]; auto.
  Qed.

  Lemma S_clone_world h w : Safe h -> Away w ->
    Safe (fst (hclone_world D H copy h w)) /\ Away (snd (hclone_world D H copy h w)).
  Proof.
    intros HS (A1 & A2 & A3 & A4). unfold hclone_world.
    destruct (S_clone_all _ (hw_agents w) S_clone_agent h HS A1) as [S1 N1].
    destruct (S_clone_all _ (hw_objects w) S_clone_model _ S1 A2) as [S2 N2].
    split; [exact S2|]. repeat split; auto.
  Qed.

  Lemma S_plan_model R cw id dt fuel : forall h l, Safe h -> ~ P l -> Safe (plan_model D H R cw id dt fuel h l).
  Proof.
    induction fuel as [|n IH]; intros h l HS Nl; cbn; [exact HS|].
    destruct (Model_Heap.hget D H h l) as [[d subs|a]|] eqn:E; [|exact HS|exact HS].
    apply S_wr; [|exact Nl].
    assert (G : forall subs h, Safe h -> away subs -> Safe (fold_left (fun h' s => plan_model D H R cw id dt n h' s) subs h)).
    { clear - IH. induction subs as [|x r IHr]; intros h HS Hs; cbn; [exact HS|].
      apply IHr; [apply IH; [exact HS|apply Hs; cbn; auto]|intros y Hy; apply Hs; cbn; auto]. }
    apply G; [exact HS|]. exact (sf_away _ HS l _ Nl E).
  Qed.

  Lemma S_plan_agent R cw t dt fuel h (p : N * loc) : Safe h -> ~ P (hw_observer cw) -> ~ P (snd p) ->
    Safe (hplan_agent D H R cw t dt fuel h p).
  Proof.
    intros HS No Np. unfold hplan_agent.
    destruct (Model_Heap.hget D H h (snd p)) as [[d subs|a]|] eqn:E; [exact HS| |exact HS].
    pose proof (sf_away _ HS _ _ Np E) as Ha. cbn [ptrs] in Ha.
    destruct (o_goes D H R h cw (fst p)); [|exact HS].
    assert (S1 : Safe (plan_model D H R cw (fst p) dt fuel
                 (wr_model D H h (hw_observer cw) (o_observe D H R h cw (fst p))) (ha_bm H a))).
    { apply S_plan_model; [|apply Ha; cbn; auto]. apply S_wr; auto. }
    cbv zeta.
    destruct (payload D H _ (ha_bm H a)); [|exact S1]. destruct (payload D H _ (ha_dm H a)); [|exact S1].
    apply S_wr; [exact S1|apply Ha; cbn; auto].
  Qed.

  Lemma S_exec_agent R h (p : N * loc) : Safe h -> ~ P (snd p) -> Safe (hexec_agent D H R h p).
  Proof.
    intros HS Np. unfold hexec_agent.
    destruct (Model_Heap.hget D H h (snd p)) as [[d subs|a]|] eqn:E; [exact HS| |exact HS].
    pose proof (sf_away _ HS _ _ Np E) as Ha.
    destruct (payload D H h (ha_bm H a)); [|exact HS]. destruct (payload D H h (ha_em H a)); [|exact HS].
    destruct (o_moves D H R _ _); [|exact HS]. apply S_set; auto.
  Qed.

  Lemma S_fold {A} (f : heap -> A -> heap) (Q : A -> Prop) l : (forall h a, Safe h -> Q a -> Safe (f h a)) ->
    forall h, Safe h -> (forall a, In a l -> Q a) -> Safe (fold_left f l h).
  Proof.
    intros Hf. induction l as [|a r IH]; intros h HS Hq; cbn; [exact HS|].
    apply IH; [apply Hf; cbn in Hq; auto|cbn in Hq; auto].
  Qed.

  Lemma away_snd m (p : N * loc) : away (map snd m) -> In p m -> ~ P (snd p).
  Proof. intros A Hp. apply A. now apply in_map. Qed.

  Lemma S_plan_all R dt fuel h w l : Safe h -> Away w -> (forall p, In p l -> In p (hw_agents w)) ->
    Safe (hplan_all D H copy R dt fuel h w l).
  Proof.
    intros HS HA Hl. unfold hplan_all. cbv zeta.
    destruct (S_clone_world h w HS HA) as [S1 (_ & _ & _ & No)].
    apply (S_fold _ (fun p => ~ P (snd p))); [intros; now apply S_plan_agent|exact S1|].
    intros p Hp. destruct HA as (A1 & _). apply (away_snd _ p A1). auto.
  Qed.

  Lemma S_step R dt fuel h w : Safe h -> Away w ->
    Safe (fst (hstep D H copy R dt fuel h w)) /\ Away (snd (hstep D H copy R dt fuel h w)).
  Proof.
    intros HS HA. pose proof (S_plan_all R dt fuel h w (hw_agents w) HS HA (fun p Hp => Hp)) as S1.
    unfold hplan_all in S1. unfold hstep. cbv zeta in *. cbn [fst snd].
    destruct HA as (A1 & A2 & A3 & A4). split.
    - apply (S_fold _ (fun p => ~ P (snd p))); [intros; now apply S_exec_agent|exact S1|].
      intros p Hp. exact (away_snd _ p A1 Hp).
    - repeat split; auto. cbn. intros x Hx. apply A1. apply in_map_iff in Hx as (p & <- & Hp).
      apply filter_In in Hp as [Hp _]. now apply in_map.
  Qed.

  Lemma S_op h w op : Safe h -> Away w -> (forall id l, op = HSetBehavior D H id l -> ~ P l) ->
    Safe (fst (hrun_op D H copy h w op)) /\ Away (snd (hrun_op D H copy h w op)).
  Proof.
    intros HS HA Hop. pose proof HA as (A1 & A2 & A3 & A4).
    destruct op as [R dt fuel|R|id|id bm dm em goal hist mh|id f|id lb]; cbn [hrun_op].
    - now apply S_step.
    - split; [|exact HA]. apply (S_fold _ (fun l => ~ P l)); [intros; now apply S_wr|exact HS|exact A3].
    - split; [exact HS|]. repeat split; auto. cbn. intros x Hx. apply in_map_iff in Hx as (p & <- & Hp).
      apply filter_In in Hp as [Hp _]. apply (away_snd _ p A1 Hp).
    - destruct (S_alloc h (CModel bm []) HS) as [S1 N1]; [intros x []|].
      destruct (S_alloc _ (CModel dm []) S1) as [S2 N2]; [intros x []|].
      destruct (S_alloc _ (CModel em []) S2) as [S3 N3]; [intros x []|].
      unfold alloc; cbn [fst snd].
      set (r4 := match goal with Some g => _ | None => _ end).
      assert (S4 : Safe (fst r4) /\ away (match snd r4 with Some g => [g] | None => [] end)).
      { unfold r4. destruct goal as [g|]; cbn [fst snd]; [|split; [exact S3|intros x []]].
        destruct (S_alloc _ (CModel g []) S3) as [S4 N4]; [intros x []|]. split; [exact S4|].
        intros x [<-|[]]. exact N4. }
      destruct S4 as [S4 N4].
      match goal with |- context [fst r4 ++ [?c]] => destruct (S_alloc _ c S4) as [S5 N5] end.
      { cbn [ptrs ha_bm ha_dm ha_em ha_goal]. intros x [<-|[<-|[<-|Hx]]]; auto. }
      split; [exact S5|]. repeat split; auto. cbn. intros x Hx. apply in_map_iff in Hx as (p & <- & Hp).
      apply m_insert_In_keys in Hp as [->|Hp]; [exact N5|]. exact (away_snd _ p A1 Hp).
    - split; [|exact HA]. destruct (m_find id (hw_agents w)) as [l|] eqn:E; [|exact HS].
      apply m_find_In in E. pose proof (away_snd _ _ A1 E) as Nl. cbn in Nl.
      destruct (Model_Heap.hget D H h l) as [[d subs|a]|] eqn:Eg; [exact HS| |exact HS].
      apply S_wr; [exact HS|]. apply (sf_away _ HS l _ Nl Eg). cbn. auto.
    - split; [|exact HA]. destruct (m_find id (hw_agents w)) as [l|] eqn:E; [|exact HS].
      apply m_find_In in E. pose proof (away_snd _ _ A1 E) as Nl. cbn in Nl.
      destruct (Model_Heap.hget D H h l) as [[d subs|a]|] eqn:Eg; [exact HS| |exact HS].
      apply S_set; auto. pose proof (sf_away _ HS l _ Nl Eg) as Ha. cbn [ptrs] in Ha |- *.
      cbn [ha_bm ha_dm ha_em ha_goal]. intros x [<-|Hx]; [exact (Hop id lb eq_refl)|]. apply Ha. cbn. auto.
  Qed.

  Lemma S_run ops : forall h w, Safe h -> Away w -> (forall id l, In (HSetBehavior D H id l) ops -> ~ P l) ->
    Safe (fst (hrun D H copy h w ops)) /\ Away (snd (hrun D H copy h w ops)).
  Proof.
    induction ops as [|op r IH]; intros h w HS HA Hop; cbn; [auto|].
    destruct (S_op h w op HS HA) as [S1 A1]; [intros id l ->; apply (Hop id l); cbn; auto|].
    apply IH; auto. intros id l Hi. apply (Hop id l). cbn; auto.
  Qed.
End Frame.
