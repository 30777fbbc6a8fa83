From Coq Require Import List ZArith Bool Lia.
From Verif Require Import Model_Goal Spec_Goal.
Import ListNotations.

Section P.
  Context {O : Type}.
  Notation goal := (goal O). Notation task := (task O).

  Fixpoint task_ind' (P : task -> Prop) (HV : forall p, P (Visit p))
    (HS : forall ts, Forall P ts -> P (InOrder ts)) (t : task) : P t :=
    match t with
    | Visit p => HV p
    | InOrder ts => HS ts ((fix go l : Forall P l :=
        match l with [] => Forall_nil _ | u :: r => Forall_cons u (task_ind' P HV HS u) (go r) end) ts)
    end.

  Lemma nonempty_seq ts : nonempty (InOrder ts) <-> ts <> [] /\ Forall (@nonempty O) ts.
  Proof.
    simpl. assert (Q : forall l, (fix all l := match l with [] => True | u :: r => nonempty u /\ all r end) l
                      <-> Forall (@nonempty O) l).
    { induction l; split; intros; auto.
      - destruct H. constructor; auto. apply IHl; auto.
      - inversion H; subst. split; auto. apply IHl; auto. }
    rewrite Q. reflexivity.
  Qed.

  (** ** accomplished *)
  Lemma acc_all_cons_inv (t : task) ts h : accomplished_all (t :: ts) h ->
    exists h1 h2, h = h1 ++ h2 /\ accomplished t h1 /\ accomplished_all ts h2.
  Proof. intros H. inversion H; subst. eauto. Qed.

  Lemma acc_seq_inv (ts : list task) h : accomplished (InOrder ts) h -> accomplished_all ts h.
  Proof. intros H. inversion H; subst. assumption. Qed.
  Lemma acc_visit_inv p (h : list O) : accomplished (Visit p) h -> exists x, In x h /\ p x = true.
  Proof. intros H. inversion H; subst. eauto. Qed.

  Lemma acc_mono : forall t (h h1 h2 : list O), accomplished t h -> accomplished t (h1 ++ h ++ h2).
  Proof.
    induction t as [p|ts IH] using task_ind'; intros h h1 h2 A.
    - apply acc_visit_inv in A. destruct A as (x & I & T). apply acc_visit with x; auto. rewrite !in_app_iff. auto.
    - apply acc_seq_inv in A. rename A into H1. constructor. destruct ts as [|t ts]; [constructor|].
      apply acc_all_cons_inv in H1. destruct H1 as (a & b & -> & A & B).
      inversion IH as [|? ? It Its]; subst.
      replace (h1 ++ (a ++ b) ++ h2) with ((h1 ++ a) ++ (b ++ h2)) by (rewrite <- !app_assoc; reflexivity).
      constructor.
      + specialize (It a h1 [] A). rewrite app_nil_r in It. exact It.
      + clear It A IH. revert b B. induction ts as [|u us IHu]; intros b B; [constructor|].
        apply acc_all_cons_inv in B. destruct B as (c & d & -> & C & D).
        inversion Its; subst. rewrite <- app_assoc. constructor; auto.
  Qed.

  Lemma acc_all_mono ts (h h2 : list O) : accomplished_all ts h -> accomplished_all ts (h ++ h2).
  Proof.
    revert h. induction ts as [|t ts IH]; intros h A; [constructor|].
    apply acc_all_cons_inv in A. destruct A as (a & b & -> & A & B).
    rewrite <- app_assoc. constructor; auto.
  Qed.

  Lemma acc_all_app ts t (h : list O) : accomplished_all (ts ++ [t]) h <->
    exists h1 h2, h = h1 ++ h2 /\ accomplished_all ts h1 /\ accomplished t h2.
  Proof.
    revert h. induction ts as [|u ts IH]; intros h; simpl.
    - split.
      + intros A. apply acc_all_cons_inv in A. destruct A as (a & b & -> & A & B).
        exists [], (a ++ b). split; auto. split; [constructor|].
        apply (acc_mono t a [] b A).
      + intros (a & b & -> & A & B). 
        replace (a ++ b) with ((a ++ b ++ []) ++ []) by (rewrite !app_nil_r; reflexivity).
        constructor; [|constructor]. apply acc_mono. exact B.
    - split.
      + intros A. apply acc_all_cons_inv in A. destruct A as (a & b & -> & A & B).
        apply IH in B. destruct B as (c & d & -> & C & E).
        exists (a ++ c), d. rewrite app_assoc. split; auto. split; auto. constructor; auto.
      + intros (a & b & -> & A & B). apply acc_all_cons_inv in A. destruct A as (c & d & -> & C & E).
        rewrite <- app_assoc. constructor; auto. apply IH. eauto.
  Qed.

  Lemma visit_nil p : ~ accomplished (Visit p) (@nil O).
  Proof. intros A. apply acc_visit_inv in A. destruct A as (x & [] & _). Qed.

  Lemma acc_nonempty : forall t : task, nonempty t -> ~ accomplished t [].
  Proof.
    induction t as [p|ts IH] using task_ind'; intros N A.
    - eapply visit_nil; eauto.
    - apply nonempty_seq in N. destruct N as [N1 N2]. apply acc_seq_inv in A. rename A into H0.
      destruct ts as [|t ts]; [congruence|].
      apply acc_all_cons_inv in H0. destruct H0 as (a & b & E & B & _).
      symmetry in E. apply app_eq_nil in E. destruct E as [-> _].
      rewrite Forall_forall in IH, N2. apply (IH t); [left; auto|apply N2; left; auto|exact B].
  Qed.

  (** ** one call *)
  Lemma ask_spec {A} (f : A -> option (bool * A)) l1 t l2 b t' :
    f t = Some (b, t') -> ask f (l1 ++ t :: l2) (length l1) = Some (b, l1 ++ t' :: l2).
  Proof. intros H. induction l1; simpl; [rewrite H; reflexivity|rewrite IHl1; reflexivity]. Qed.

  (** stepping a stage: sub-goals [l1] done, [t] current *)
  Lemma at_goal_stage (l1 : list goal) t l2 x b t' :
    at_goal t x = Some (b, t') ->
    at_goal (GSeq (l1 ++ t :: l2) (Z.of_nat (length l1) - 1)) x =
    Some ((b && match l2 with [] => true | _ => false end)%bool,
          GSeq (l1 ++ t' :: l2) (if b then Z.of_nat (length l1) else Z.of_nat (length l1) - 1)%Z).
  Proof.
    intros H. cbn [at_goal]. pose proof (ask_spec (fun u : goal => at_goal u x) l1 t l2 b t' H) as A.
    rewrite app_length. cbn [length].
    destruct (Z.eqb_spec (Z.of_nat (length l1) - 1) (-1)) as [E|E].
    - assert (L : length l1 = 0) by lia. destruct l1; [|discriminate]. cbn [length] in A. rewrite A.
      f_equal. f_equal.
      + destruct b; cbn [andb].
        * destruct l2; cbn [length]; [apply Z.eqb_eq|apply Z.eqb_neq]; cbn [length]; lia.
        * apply Z.eqb_neq. cbn [length]. lia.
    - destruct (Z.leb_spec (Z.of_nat (length l1) - 1 + 1) (Z.of_nat (length l1 + S (length l2)) - 1)) as [Q|Q]; [|lia].
      replace (Z.to_nat (Z.of_nat (length l1) - 1 + 1)) with (length l1) by lia. rewrite A.
      f_equal. f_equal.
      + destruct b; cbn [andb].
        * destruct l2; cbn [length]; [apply Z.eqb_eq|apply Z.eqb_neq]; lia.
        * apply Z.eqb_neq. lia.
      + destruct b; auto. f_equal. lia.
  Qed.

  Lemma at_goal_finished (l : list goal) x : l <> [] ->
    at_goal (GSeq l (Z.of_nat (length l) - 1)) x = Some (true, GSeq l (Z.of_nat (length l) - 1)).
  Proof.
    intros N. cbn [at_goal]. destruct l as [|a l]; [congruence|]. cbn [length].
    destruct (Z.eqb_spec (Z.of_nat (S (length l)) - 1) (-1)); [lia|].
    destruct (Z.leb_spec (Z.of_nat (S (length l)) - 1 + 1) (Z.of_nat (S (length l)) - 1)); [lia|].
    rewrite Z.eqb_refl. reflexivity.
  Qed.

  Lemma run_app (g : goal) h1 h2 : run_goal g (h1 ++ h2) =
    match run_goal g h1 with
    | Some (b1, g1) => match run_goal g1 h2 with
                       | Some (b2, g2) => Some (b1 ++ b2, g2) | None => None end
    | None => None
    end.
  Proof.
    revert g. induction h1 as [|x h1 IH]; intros g; simpl.
    - destruct (run_goal g h2) as [[? ?]|]; reflexivity.
    - destruct (at_goal g x) as [[b g']|]; [|reflexivity]. rewrite IH.
      destruct (run_goal g' h1) as [[? ?]|]; [|reflexivity].
      destruct (run_goal g0 h2) as [[? ?]|]; reflexivity.
  Qed.

  Lemma run_snoc g h x bs g1 b g2 : run_goal g h = Some (bs, g1) -> at_goal g1 x = Some (b, g2) ->
    run_goal (O:=O) g (h ++ [x]) = Some (bs ++ [b], g2).
  Proof. intros H1 H2. rewrite run_app, H1. simpl. rewrite H2. reflexivity. Qed.

  (** The result of the runs: after [h] the task object is in a state from which
      we know whether the task is accomplished. *)
  Definition good (t : task) : Prop := forall h, exists bs g,
    run_goal (fresh t) h = Some (bs, g) /\ length bs = length h /\
    (* reached at some call iff accomplished *)
    (In true bs <-> accomplished t h).

  (** invariant of a sequential goal after history h *)
  Record stage (ts : list task) (h : list O) (g : goal) : Prop := {
    st_ex : exists (d : list task) (gd : list goal) (ha hb : list O),
      h = ha ++ hb /\ length gd = length d /\
      accomplished_all d ha /\
      (forall h', (exists s, ha = h' ++ s /\ s <> []) -> ~ accomplished_all d h') /\
      ((exists c r gc bs, ts = d ++ c :: r /\
          g = GSeq (gd ++ gc :: map fresh r) (Z.of_nat (length d) - 1) /\
          run_goal (fresh c) hb = Some (bs, gc) /\ ~ In true bs) \/
       (ts = d /\ g = GSeq gd (Z.of_nat (length d) - 1)))
  }.

  Lemma prefix_compare (a b c d : list O) : a ++ b = c ++ d ->
    (exists s, a = c ++ s /\ d = s ++ b /\ s <> []) \/ (exists s, c = a ++ s /\ b = s ++ d).
  Proof.
    revert c. induction a as [|x a IH]; intros c E; simpl in E.
    - right. exists c. auto.
    - destruct c as [|y c]; simpl in E.
      + left. exists (x :: a). split; auto. split; [|discriminate]. simpl. congruence.
      + injection E as <- E. destruct (IH c E) as [(s & -> & -> & N)|(s & -> & ->)].
        * left. exists s. auto.
        * right. exists s. auto.
  Qed.

  Lemma stage_not_next d c (ha hb : list O) bs gc : good c ->
    (forall h', (exists s, ha = h' ++ s /\ s <> []) -> ~ accomplished_all d h') ->
    run_goal (fresh c) hb = Some (bs, gc) -> ~ In true bs ->
    ~ accomplished_all (d ++ [c]) (ha ++ hb).
  Proof.
    intros G M R N A. apply acc_all_app in A. destruct A as (h1 & h2 & E & A1 & A2).
    destruct (prefix_compare _ _ _ _ E) as [(s & Ea & Ed & Hs)|(s & Ea & Ed)].
    - apply (M h1); eauto.
    - subst. destruct (G (s ++ h2)) as (bs' & g' & R' & _ & I). rewrite R in R'. injection R' as <- <-.
      apply N. apply I. replace (s ++ h2) with (s ++ h2 ++ []) by (rewrite app_nil_r; reflexivity).
      apply acc_mono. exact A2.
  Qed.

  Lemma acc_all_prefix d c r (h : list O) : accomplished_all (d ++ c :: r) h -> accomplished_all (d ++ [c]) h.
  Proof.
    revert h. induction d as [|u d IH]; simpl; intros h A; apply acc_all_cons_inv in A;
      destruct A as (a & b & -> & A & B); constructor; auto. constructor.
  Qed.

  Lemma seq_run ts : ts <> [] -> Forall good ts -> Forall (@nonempty O) ts -> forall h, exists bs g,
    run_goal (fresh (InOrder ts)) h = Some (bs, g) /\ length bs = length h /\
    stage ts h g /\ (forall i, nth_error bs i = Some true <->
       (i < length h /\ accomplished_all ts (firstn (S i) h))).
  Proof.
    intros NE G NT h. induction h as [|x h IH] using rev_ind.
    - exists [], (fresh (InOrder ts)). simpl. split; auto. split; auto. split.
      + destruct ts as [|c r]; [congruence|]. constructor. exists [], [], [], [].
        split; auto. split; auto. split; [constructor|]. split.
        * intros h' (s & E & N). symmetry in E. apply app_eq_nil in E. tauto.
        * left. exists c, r, (fresh c), []. simpl. auto.
      + intros i. destruct i; simpl; split; intros; try discriminate; lia.
    - destruct IH as (bs & g & R & L & S & B).
      assert (STEP : exists b g', at_goal g x = Some (b, g') /\ stage ts (h ++ [x]) g' /\
                     (b = true <-> accomplished_all ts (h ++ [x]))).
      { destruct S as [(d & gd & ha & hb & Eh & Ld & Ad & Md & [(c & r & gc & bc & Et & Eg & Rc & Nc)|[Et Eg]])].
        - assert (Gc : good c) by (rewrite Forall_forall in G; apply G; rewrite Et, in_app_iff; simpl; auto).
          assert (NT' : nonempty c) by (rewrite Forall_forall in NT; apply NT; rewrite Et, in_app_iff; simpl; auto).
          destruct (Gc (hb ++ [x])) as (bc' & gc' & Rc' & Lc' & Ic').
          rewrite run_app, Rc in Rc'. simpl in Rc'.
          destruct (at_goal gc x) as [[b gc'']|] eqn:Ex; [|discriminate]. injection Rc' as <- <-.
          rewrite in_app_iff in Ic'. simpl in Ic'.
          subst g. rewrite <- Ld. rewrite (at_goal_stage gd gc (map fresh r) x b gc'' Ex).
          eexists. eexists. split; [reflexivity|]. destruct b.
          + (* current sub-goal reached *)
            assert (Ac : accomplished c (hb ++ [x])) by (apply Ic'; auto).
            assert (Anew : accomplished_all (d ++ [c]) (h ++ [x])).
            { apply acc_all_app. exists ha, (hb ++ [x]). rewrite Eh, app_assoc. auto. }
            assert (Mnew : forall h', (exists s, h ++ [x] = h' ++ s /\ s <> []) -> ~ accomplished_all (d ++ [c]) h').
            { intros h' (s & Es & Ns) A'.
              destruct (exists_last Ns) as (s' & y & ->).
              rewrite app_assoc in Es. apply app_inj_tail in Es. destruct Es as [Es _].
              apply (stage_not_next d c ha hb bc gc Gc Md Rc Nc).
              rewrite <- Eh, Es. apply acc_all_mono. exact A'. }
            split.
            * constructor. exists (d ++ [c]), (gd ++ [gc'']), (h ++ [x]), [].
              rewrite app_nil_r, !app_length. split; auto. split; [simpl; lia|]. split; auto. split; auto.
              destruct r as [|c2 r2].
              -- right. split; auto. f_equal. simpl; lia.
              -- left. exists c2, r2, (fresh c2), []. rewrite <- !app_assoc. simpl. split; auto. split; auto.
                 f_equal. simpl; lia.
            * destruct r as [|c2 r2]; simpl.
              -- rewrite Et. tauto.
              -- split; [discriminate|]. intros A. exfalso. rewrite Et in A.
                 replace (d ++ c :: c2 :: r2) with ((d ++ [c]) ++ c2 :: r2) in A by (rewrite <- app_assoc; reflexivity).
                 apply acc_all_prefix in A. apply acc_all_app in A. destruct A as (h1 & h2 & E & A1 & A2).
                 assert (NE2 : nonempty c2).
                 { rewrite Forall_forall in NT. apply NT. rewrite Et, in_app_iff. simpl. auto. }
                 apply (Mnew h1); auto. exists h2. split; auto. intros ->. revert A2. apply acc_nonempty. exact NE2.
          + (* not reached *)
            assert (Nb : ~ In true (bc ++ [false])) by (rewrite in_app_iff; simpl; intuition discriminate).
            split.
            * constructor. exists d, gd, ha, (hb ++ [x]). rewrite Eh, app_assoc.
              split; auto. split; auto. split; auto. split; auto.
              left. exists c, r, gc'', (bc ++ [false]). split; auto. split; [rewrite Ld; reflexivity|].
              split; auto. eapply run_snoc; eauto.
            * split; [discriminate|]. intros A. exfalso. rewrite Et in A. apply acc_all_prefix in A.
              rewrite Eh, <- app_assoc in A. revert A.
              apply (stage_not_next d c ha (hb ++ [x]) (bc ++ [false]) gc''); auto. eapply run_snoc; eauto.
        - subst g. rewrite <- Ld. rewrite at_goal_finished by (intros ->; simpl in Ld; subst; destruct d; simpl in *; congruence).
          eexists. eexists. split; [reflexivity|]. split.
          + constructor. exists d, gd, ha, (hb ++ [x]). rewrite Eh, app_assoc.
            split; auto. split; auto. split; auto. split; auto. right. rewrite Ld. auto.
          + split; auto. intros _. subst d. rewrite Eh, <- app_assoc. apply acc_all_mono. exact Ad. }
      destruct STEP as (b & g' & E1 & S' & Hb).
      exists (bs ++ [b]), g'. split; [eapply run_snoc; eauto|]. rewrite !app_length. cbn [length].
      split; [lia|]. split; auto. intros i.
      destruct (Nat.lt_ge_cases i (length h)) as [Q|Q].
      + rewrite nth_error_app1 by lia. rewrite B.
        rewrite firstn_app. replace (Datatypes.S i - length h) with 0 by lia. simpl (firstn 0 _). rewrite app_nil_r.
        split; intros [? ?]; split; auto; lia.
      + destruct (Nat.eq_dec i (length h)) as [->|Q'].
        * rewrite nth_error_app2 by lia. rewrite L, Nat.sub_diag. cbn [nth_error].
          rewrite firstn_all2 by (rewrite app_length; simpl; lia).
          split; [intros E; injection E as ->; split; [lia|tauto]|intros [_ A]; f_equal; tauto].
        * split; [intros E; (assert (nth_error (bs ++ [b]) i <> None) by congruence; apply nth_error_Some in H; rewrite app_length in H; simpl in H; lia)|lia].
  Qed.

  Lemma all_good : forall t : task, nonempty t -> good t.
  Proof.
    induction t as [p|ts IH] using task_ind'; intros N.
    - intros h. exists (map p h), (GAtom p). split; [|split].
      + induction h as [|x h IHh]; simpl; [reflexivity|]. simpl in IHh. rewrite IHh. reflexivity.
      + apply map_length.
      + rewrite in_map_iff. split.
        * intros (x & E & I). eapply acc_visit; eauto.
        * intros A. apply acc_visit_inv in A. destruct A as (x & I & T). eauto.
    - apply nonempty_seq in N. destruct N as [N1 N2].
      assert (G : Forall good ts).
      { rewrite Forall_forall in *. auto. }
      intros h. destruct (seq_run ts N1 G N2 h) as (bs & g & R & L & _ & B).
      exists bs, g. split; auto. split; auto. split.
      + intros I. apply In_nth_error in I. destruct I as [i I]. apply B in I. destruct I as [_ A].
        constructor. rewrite <- (firstn_skipn (S i) h). apply acc_all_mono. exact A.
      + intros A. pose proof (acc_seq_inv _ _ A) as H0. destruct h as [|x h].
        { exfalso. revert A. apply acc_nonempty. apply nonempty_seq. auto. }
        apply (nth_error_In bs (length h)). apply B. split; [simpl; lia|].
        rewrite firstn_all2 by (simpl; lia). exact H0.
  Qed.
End P.
