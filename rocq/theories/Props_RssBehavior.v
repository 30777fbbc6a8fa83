(** C64: the RSS conformant behaviour (bark/models/behavior/behavior_rss, behavior_safety). *)
From Coq Require Import Reals List Bool Arith NArith Lia Lra.
From Verif Require Import Base_Real Base_Geom Model_Map Model_Angle Model_Line Model_Frenet Model_Dynamic Model_IDM Model_RSS.
Import ListNotations.
Local Open Scope R_scope.

Section RssBehavior.
  Variables C W M E Traj Act : Type.
  Variable ceqb : C -> C -> bool.
  Hypothesis ceqb_spec : forall a b, ceqb a b = true <-> a = b.
  Variable track : tracker C M Traj Act -> R -> W -> option (tracker C M Traj Act).
  Variable evaluate : E -> W -> E * option (option bool).
  Variable limits : E -> R -> Act -> W -> option (option (acc_limits * acc_limits)).
  Variable lane_corridor : W -> option C.
  Variable unique_corridors : W -> option (list C).
  Variable length_until_end : C -> W -> option R.
  Variable world_time : W -> R.
  Notation plan := (rss_plan C W M E Traj Act ceqb track evaluate limits lane_corridor unique_corridors length_until_end world_time).
  Notation beh := (rss_beh C Traj Act).
  Notation store := (store C M E Traj Act).
  Notation tracker := (tracker C M Traj Act).

  (* ---------------------------------------------------------------- observations *)
  (** What a caller sees behind the pointers of a behaviour. *)
  Definition nominal_of (b : beh) (s : store) : tracker := h_tr _ _ _ _ _ (st_heap _ _ _ _ _ s) (rb_nominal _ _ _ b).
  Definition safety_of (b : beh) (s : store) : safety C Traj Act := st_safety _ _ _ _ _ s (rb_safety _ _ _ b).
  Definition fallback_of (b : beh) (s : store) : tracker := h_tr _ _ _ _ _ (st_heap _ _ _ _ _ s) (sa_tr _ _ _ (safety_of b s)).
  Definition eval_of (b : beh) (s : store) : E := h_ev _ _ _ _ _ (st_heap _ _ _ _ _ s) (rb_eval _ _ _ b).
  (** The corridor the emergency manoeuvre follows. *)
  Definition safety_corridor (b : beh) (s : store) : option C := sa_init _ _ _ (safety_of b s).
  (** Nominal and emergency manoeuvre use different lane tracking models. *)
  Definition separate (b : beh) (s : store) : Prop := rb_nominal _ _ _ b <> sa_tr _ _ _ (safety_of b s).

  Lemma bindE : forall (A B : Type) (x : option A) (f : A -> option B) y, bind x f = Some y -> exists a, x = Some a /\ f a = Some y.
  Proof. intros A B [a|] f y H; [exists a; auto|discriminate]. Qed.

  Lemma set_tr_same : forall h i t, h_tr C M E Traj Act (set_tr C M E Traj Act h i t) i = t.
  Proof. intros. cbn. now rewrite Nat.eqb_refl. Qed.
  Lemma set_tr_other : forall h i j t, j <> i -> h_tr C M E Traj Act (set_tr C M E Traj Act h i t) j = h_tr _ _ _ _ _ h j.
  Proof. intros h i j t H. cbn. apply Nat.eqb_neq in H. now rewrite H. Qed.

  (** The pointers and parameters never change. *)
  Lemma initialise_frame : forall b s w b' s', initialise C W M E Traj Act ceqb lane_corridor unique_corridors b s w = Some (b', s') ->
    rb_nominal _ _ _ b' = rb_nominal _ _ _ b /\ rb_safety _ _ _ b' = rb_safety _ _ _ b /\ rb_eval _ _ _ b' = rb_eval _ _ _ b /\
    rb_par _ _ _ b' = rb_par _ _ _ b /\ rb_status _ _ _ b' = rb_status _ _ _ b /\ rb_violation _ _ _ b' = rb_violation _ _ _ b /\
    rb_limits _ _ _ b' = rb_limits _ _ _ b /\ rb_traj _ _ _ b' = rb_traj _ _ _ b /\ rb_act _ _ _ b' = rb_act _ _ _ b /\
    h_ev _ _ _ _ _ (st_heap _ _ _ _ _ s') = h_ev _ _ _ _ _ (st_heap _ _ _ _ _ s) /\
    (forall i, i <> rb_nominal _ _ _ b -> h_tr _ _ _ _ _ (st_heap _ _ _ _ _ s') i = h_tr _ _ _ _ _ (st_heap _ _ _ _ _ s) i) /\
    (forall i, i <> rb_safety _ _ _ b -> st_safety _ _ _ _ _ s' i = st_safety _ _ _ _ _ s i) /\
    sa_tr _ _ _ (st_safety _ _ _ _ _ s' (rb_safety _ _ _ b)) = sa_tr _ _ _ (st_safety _ _ _ _ _ s (rb_safety _ _ _ b)) /\
    tr_model _ _ _ _ (nominal_of b s') = tr_model _ _ _ _ (nominal_of b s) /\
    tr_limits _ _ _ _ (nominal_of b s') = tr_limits _ _ _ _ (nominal_of b s) /\
    tr_traj _ _ _ _ (nominal_of b s') = tr_traj _ _ _ _ (nominal_of b s) /\
    tr_act _ _ _ _ (nominal_of b s') = tr_act _ _ _ _ (nominal_of b s).
  Proof.
    intros b s w b' s' H. unfold initialise in H. destruct (rb_init _ _ _ b) eqn:I.
    - injection H as <- <-. repeat split; auto.
    - destruct (unique_corridors w) as [cs|]; [|discriminate]. injection H as <- <-. unfold nominal_of.
      cbn -[set_tr]. rewrite set_tr_same. cbn -[set_tr]. repeat split; auto.
      + intros i Hi. now rewrite set_tr_other.
      + intros i Hi. cbn. apply Nat.eqb_neq in Hi. now rewrite Hi.
      + now rewrite Nat.eqb_refl.
  Qed.
  Lemma update_frame : forall b s w s', update_corridor C W M E Traj Act lane_corridor length_until_end b s w = Some s' ->
    st_heap _ _ _ _ _ s' = st_heap _ _ _ _ _ s /\
    (forall i, i <> rb_safety _ _ _ b -> st_safety _ _ _ _ _ s' i = st_safety _ _ _ _ _ s i) /\
    sa_tr _ _ _ (safety_of b s') = sa_tr _ _ _ (safety_of b s).
  Proof.
    intros b s w s' H. unfold update_corridor in H. destruct (sa_init _ _ _ _) as [c|]; [|discriminate].
    destruct (length_until_end c w) as [len|]; [|discriminate]. destruct (Rleb len _); injection H as <-.
    - unfold safety_of. cbn. rewrite Nat.eqb_refl. split; [reflexivity|]. split; [|reflexivity]. intros i Hi. apply Nat.eqb_neq in Hi. now rewrite Hi.
    - auto.
  Qed.

  (* ---------------------------------------------------------------- T1 *)
  (** C64. In a lane, a planning step either is undefined or the evaluator gave a definite verdict on the world planned for, and the
      behaviour reports it: status, time of the last violation, VALID. *)
  Theorem C64_status : forall b s dt w c b' s', lane_corridor w = Some c -> plan b s dt w = Some (b', s') ->
    exists ok, evaluate (eval_of b s) w = (eval_of b s', Some (Some ok)) /\
      rb_status _ _ _ b' = (if ok then NOMINAL_BEHAVIOR else SAFETY_BEHAVIOR) /\
      rb_violation _ _ _ b' = (if ok then rb_violation _ _ _ b else world_time w) /\
      rb_bstatus _ _ _ b' = VALID.
  Proof.
    intros b s dt w c b' s' L H. unfold rss_plan in H. apply bindE in H as ((b1, s1) & I & H). cbn [fst snd] in H.
    apply bindE in H as (s2 & U & H). rewrite L in H.
    pose proof (initialise_frame _ _ _ _ _ I) as (Fn & Fs & Fe & Fp & Fst & Fv & Fl & Ft & Fa & Fev & _).
    pose proof (update_frame _ _ _ _ U) as (Hh & _).
    rewrite Hh, Fev, Fe in H. fold (eval_of b s) in H.
    destruct (evaluate (eval_of b s) w) as [e [verdict|]] eqn:Ev; [|discriminate]. cbn [bind] in H.
    apply bindE in H as (lim & _ & H). apply bindE in H as (ok & -> & H). exists ok.
    cbn zeta in H. destruct (ok || rp_no_safety (rb_par _ _ _ b1)) eqn:D.
    - apply bindE in H as (t' & _ & H). injection H as <- <-.
      split; [|rewrite Fv; cbn; auto]. f_equal. unfold eval_of. cbn. destruct (rp_nominal _); cbn; now rewrite Nat.eqb_refl.
    - apply bindE in H as ((sa', h') & P & H). injection H as <- <-.
      split; [|rewrite Fv; cbn; auto]. f_equal. unfold eval_of. cbn. unfold safety_plan in P.
      destruct (track _ dt w); [|discriminate]. injection P as _ <-. destruct (rp_safety _); cbn; now rewrite Nat.eqb_refl.
  Qed.

  (** C64. The acceleration limits kept after a step in a lane are those computed in this step from the evaluator's new answer, the
      previous action and the world (an evaluator that is not RSS leaves them unchanged). *)
  Theorem C64_limits : forall b s dt w c b' s', lane_corridor w = Some c -> plan b s dt w = Some (b', s') ->
    match limits (eval_of b s') dt (rb_act _ _ _ b) w with
    | Some new => new = Some (rb_limits _ _ _ b')
    | None => rb_limits _ _ _ b' = rb_limits _ _ _ b
    end.
  Proof.
    intros b s dt w c b' s' L H. destruct (C64_status b s dt w c b' s' L H) as (ok0 & Ev0 & _).
    unfold rss_plan in H. apply bindE in H as ((b1, s1) & I & H). cbn [fst snd] in H.
    apply bindE in H as (s2 & U & H). rewrite L in H.
    pose proof (initialise_frame _ _ _ _ _ I) as (Fn & Fs & Fe & Fp & Fst & Fv & Fl & Ft & Fa & Fev & _).
    pose proof (update_frame _ _ _ _ U) as (Hh & _).
    rewrite Hh, Fev, Fe in H. fold (eval_of b s) in H. rewrite Ev0 in H. cbn [bind] in H.
    apply bindE in H as (lim & Li & H). rewrite Fa, Fl in Li.
    assert (R : rb_limits _ _ _ b' = lim).
    { cbn zeta in H. destruct (ok0 || rp_no_safety (rb_par _ _ _ b1)).
      - apply bindE in H as (t' & _ & H). injection H as <- _. reflexivity.
      - apply bindE in H as (t' & _ & H). injection H as <- _. reflexivity. }
    rewrite R. destruct (limits (eval_of b s') dt (rb_act _ _ _ b) w); congruence.
  Qed.

  (** C64. Off the lane (no lane corridor) the step leaves the last verdict, trajectory, action and the evaluator as they were and
      reports EXPIRED. *)
  Theorem C64_expired : forall b s dt w b' s', lane_corridor w = None -> plan b s dt w = Some (b', s') ->
    rb_bstatus _ _ _ b' = EXPIRED /\ rb_traj _ _ _ b' = rb_traj _ _ _ b /\ rb_act _ _ _ b' = rb_act _ _ _ b /\
    rb_status _ _ _ b' = rb_status _ _ _ b /\ rb_violation _ _ _ b' = rb_violation _ _ _ b /\ eval_of b s' = eval_of b s /\
    nominal_of b s' = nominal_of b s /\ fallback_of b s' = fallback_of b s.
  Proof.
    intros b s dt w b' s' L H. unfold rss_plan in H. apply bindE in H as ((b1, s1) & I & H). cbn [fst snd] in H.
    apply bindE in H as (s2 & U & H). rewrite L in H. injection H as <- <-.
    unfold initialise in I. destruct (rb_init _ _ _ b) eqn:Ib.
    - injection I as <- <-. destruct (update_frame _ _ _ _ U) as (Hh & _ & Hs). unfold eval_of, nominal_of, fallback_of. rewrite Hh, Hs.
      repeat split; reflexivity.
    - exfalso. rewrite L in I. destruct (unique_corridors w) as [cs|]; [|discriminate]. injection I as <- <-.
      unfold update_corridor in U. cbn in U. rewrite Nat.eqb_refl in U. discriminate.
  Qed.

  (* ---------------------------------------------------------------- T2 *)
  (** The corridor the nominal model tracks in a step: on the first call the last lane corridor that differs from the current one. *)
  Definition nominal_corridor (b : beh) (s : store) (w : W) (t : option C) : Prop :=
    match rb_init _ _ _ b with
    | Some _ => t = tr_corr _ _ _ _ (nominal_of b s)
    | None => exists cs, unique_corridors w = Some cs /\
        ((exists l1 x l2, cs = l1 ++ x :: l2 /\ t = Some x /\ lane_corridor w <> Some x /\ Forall (fun y => lane_corridor w = Some y) l2) \/
         (t = tr_corr _ _ _ _ (nominal_of b s) /\ Forall (fun y => lane_corridor w = Some y) cs))
    end.
  Lemma nominal_target_spec : forall cur cs old,
    (exists l1 x l2, cs = l1 ++ x :: l2 /\ nominal_target C ceqb cur cs old = Some x /\ cur <> Some x /\ Forall (fun y => cur = Some y) l2) \/
    (nominal_target C ceqb cur cs old = old /\ Forall (fun y => cur = Some y) cs).
  Proof.
    intros cur cs. unfold nominal_target. induction cs as [|y cs IH] using rev_ind; intro old; [right; auto|].
    rewrite fold_left_app. cbn [fold_left].
    assert (D : (exists x, cur = Some x /\ ceqb x y = true) \/ (cur <> Some y /\ match cur with Some x => ceqb x y | None => false end = false)).
    { destruct cur as [x|]; [|right; split; [discriminate|reflexivity]]. destruct (ceqb x y) eqn:Q; [left; eauto|right].
      split; [intro K; injection K as ->|reflexivity]. assert (ceqb y y = true) by (apply ceqb_spec; reflexivity). congruence. }
    destruct D as [(x & -> & Q)|(N & ->)].
    - rewrite Q. apply ceqb_spec in Q. subst y. destruct (IH old) as [(l1 & z & l2 & -> & F & K & A)|(F & A)].
      + left. exists l1, z, (l2 ++ [x]). rewrite <- app_assoc. repeat split; auto. apply Forall_app; auto.
      + right. split; [exact F|]. apply Forall_app; auto.
    - left. exists cs, y, []. repeat split; auto.
  Qed.

  (** C64. What is executed: when the verdict is "safe", or safety manoeuvres are switched off, the plan of the nominal model for
      this world, with the limits of this step if so configured; otherwise the plan of the safety model, following the safety
      corridor. The lane tracking models not executed are not stepped. *)
  Theorem C64_executes : forall b s dt w c b' s', separate b s -> lane_corridor w = Some c -> plan b s dt w = Some (b', s') ->
    let nominal := match rb_status _ _ _ b' with NOMINAL_BEHAVIOR => true | SAFETY_BEHAVIOR => rp_no_safety (rb_par _ _ _ b) end in
    exists t t', track t dt w = Some t' /\ rb_traj _ _ _ b' = tr_traj _ _ _ _ t' /\ rb_act _ _ _ b' = tr_act _ _ _ _ t' /\
      if nominal
      then tr_model _ _ _ _ t = tr_model _ _ _ _ (nominal_of b s) /\ nominal_corridor b s w (tr_corr _ _ _ _ t) /\
           tr_limits _ _ _ _ t = (if rp_nominal (rb_par _ _ _ b) then Some (fst (rb_limits _ _ _ b')) else tr_limits _ _ _ _ (nominal_of b s)) /\
           nominal_of b s' = t' /\ fallback_of b s' = fallback_of b s
      else tr_model _ _ _ _ t = tr_model _ _ _ _ (fallback_of b s) /\ tr_corr _ _ _ _ t = safety_corridor b s' /\
           tr_limits _ _ _ _ t = (if rp_safety (rb_par _ _ _ b) then Some (fst (rb_limits _ _ _ b')) else tr_limits _ _ _ _ (fallback_of b s)) /\
           fallback_of b s' = t' /\ tr_model _ _ _ _ (nominal_of b s') = tr_model _ _ _ _ (nominal_of b s) /\
           tr_traj _ _ _ _ (nominal_of b s') = tr_traj _ _ _ _ (nominal_of b s).
  Proof.
    intros b s dt w c b' s' Sep L H. unfold rss_plan in H. apply bindE in H as ((b1, s1) & I & H). cbn [fst snd] in H.
    apply bindE in H as (s2 & U & H). rewrite L in H.
    pose proof (initialise_frame _ _ _ _ _ I) as (Fn & Fs & Fe & Fp & Fst & Fv & Fl & Ft & Fa & Fev & Ftr & Fsa & Fsat & Fm & Flm & Ftj & Fac).
    pose proof (update_frame _ _ _ _ U) as (Hh & Hsa & Hst).
    assert (NC : nominal_corridor b s w (tr_corr _ _ _ _ (nominal_of b s1))).
    { unfold nominal_corridor. unfold initialise in I. destruct (rb_init _ _ _ b) eqn:Ib; [injection I as <- <-; reflexivity|].
      destruct (unique_corridors w) as [cs|]; [|discriminate]. injection I as <- <-. exists cs. split; [reflexivity|].
      unfold nominal_of at 1 2. cbn -[set_tr]. rewrite set_tr_same. cbn [tr_corr]. apply nominal_target_spec. }
    unfold safety_of in Hst. rewrite Fs in Hst, Hsa. rewrite Fsat in Hst.
    unfold separate, safety_of in Sep.
    rewrite Hh, Fe, Fev in H. destruct (evaluate _ w) as [e [verdict|]]; [|discriminate]. cbn [bind] in H.
    apply bindE in H as (lim & _ & H). apply bindE in H as (ok & -> & H). cbn zeta in H.
    cbn [with_heap set_ev st_heap st_safety] in H. rewrite Fn, Fs, Fp in H.
    destruct (ok || rp_no_safety (rb_par _ _ _ b)) eqn:D.
    - set (h := if rp_nominal (rb_par _ _ _ b) then _ else _) in H.
      apply bindE in H as (t' & P & H). injection H as <- <-. cbn [rb_status rb_traj rb_act rb_limits].
      exists (h_tr _ _ _ _ _ h (rb_nominal _ _ _ b)), t'. split; [exact P|]. split; [reflexivity|]. split; [reflexivity|].
      assert (Dn : match (if ok then NOMINAL_BEHAVIOR else SAFETY_BEHAVIOR) with NOMINAL_BEHAVIOR => true | SAFETY_BEHAVIOR => rp_no_safety (rb_par _ _ _ b) end = true)
        by (destruct ok; [reflexivity|exact D]).
      rewrite Dn.
      assert (H1 : forall i, i <> rb_nominal _ _ _ b -> h_tr _ _ _ _ _ h i = h_tr _ _ _ _ _ (st_heap _ _ _ _ _ s) i).
      { intros i Hi. rewrite <- (Ftr i Hi). unfold h. destruct (rp_nominal _); cbn; rewrite ?(proj2 (Nat.eqb_neq _ _) Hi); reflexivity. }
      split; [|split; [|split; [|split]]].
      + rewrite <- Fm. unfold nominal_of, h. destruct (rp_nominal _); cbn; rewrite ?Nat.eqb_refl; reflexivity.
      + replace (tr_corr _ _ _ _ (h_tr _ _ _ _ _ h (rb_nominal _ _ _ b))) with (tr_corr _ _ _ _ (nominal_of b s1)); [exact NC|].
        unfold nominal_of, h. destruct (rp_nominal _); cbn; rewrite ?Nat.eqb_refl; reflexivity.
      + unfold h. destruct (rp_nominal _); [cbn; now rewrite Nat.eqb_refl|]. rewrite <- Flm. reflexivity.
      + unfold nominal_of. cbn. now rewrite Nat.eqb_refl.
      + unfold fallback_of, safety_of. cbn [st_heap st_safety with_heap]. rewrite Hst, set_tr_other by auto. apply H1. auto.
    - apply orb_false_elim in D as (-> & D).
      set (h := if rp_safety (rb_par _ _ _ b) then _ else _) in H.
      apply bindE in H as ((sa', h') & P & H). injection H as <- <-. cbn [rb_status rb_traj rb_act rb_limits fst snd] in *. rewrite D.
      unfold safety_plan in P. rewrite Hst in P. set (st := sa_tr _ _ _ (st_safety _ _ _ _ _ s (rb_safety _ _ _ b))) in *.
      destruct (track _ dt w) as [t'|] eqn:T; [|discriminate]. injection P as <- <-. cbn [sa_traj sa_act].
      eexists _, t'. split; [exact T|]. cbn [tr_model tr_corr tr_limits]. split; [reflexivity|]. split; [reflexivity|].
      assert (H1 : h_tr _ _ _ _ _ (st_heap _ _ _ _ _ s1) st = fallback_of b s).
      { apply Ftr. auto. }
      split; [|split; [|split; [|split]]].
      + unfold h. destruct (rp_safety _); cbn; rewrite ?Hst; fold st; rewrite ?Nat.eqb_refl; cbn; now rewrite H1.
      + unfold safety_corridor, safety_of. cbn. now rewrite Nat.eqb_refl.
      + unfold h. destruct (rp_safety _); cbn; rewrite ?Hst; fold st; rewrite ?Nat.eqb_refl; cbn; [reflexivity|now rewrite H1].
      + unfold fallback_of, safety_of. cbn. rewrite Nat.eqb_refl. cbn. now rewrite Nat.eqb_refl.
      + assert (Q : nominal_of b (set_sa C M E Traj Act (with_heap C M E Traj Act (with_heap C M E Traj Act s2 (set_ev C M E Traj Act (st_heap C M E Traj Act s1) (rb_eval C Traj Act b) e))
            (set_tr C M E Traj Act h st t')) (rb_safety C Traj Act b) (mkSa C Traj Act st (sa_init C Traj Act (st_safety C M E Traj Act s2 (rb_safety C Traj Act b))) (tr_traj C M Traj Act t') (tr_act C M Traj Act t')))
            = nominal_of b s1).
        { unfold nominal_of. cbn [st_heap with_heap set_sa]. rewrite set_tr_other by exact Sep. unfold h.
          destruct (rp_safety _); unfold restrict; [rewrite Hst; fold st; rewrite set_tr_other by exact Sep|]; reflexivity. }
        cbn in Q |- *. rewrite Q. auto.
  Qed.

  (* ---------------------------------------------------------------- T3: runs *)
  (** Successive planning steps. *)
  Fixpoint run (b : beh) (s : store) (l : list (R * W)) : option (beh * store) :=
    match l with
    | [] => Some (b, s)
    | (dt, w) :: r => match plan b s dt w with None => None | Some (b', s') => run b' s' r end
    end.

  Lemma plan_pointers : forall b s dt w b' s', plan b s dt w = Some (b', s') ->
    rb_nominal _ _ _ b' = rb_nominal _ _ _ b /\ rb_safety _ _ _ b' = rb_safety _ _ _ b /\ rb_par _ _ _ b' = rb_par _ _ _ b /\
    (rb_init _ _ _ b' = match rb_init _ _ _ b with Some c => Some c | None => lane_corridor w end) /\
    (exists c, (match rb_init _ _ _ b with Some _ => safety_corridor b s | None => lane_corridor w end) = Some c /\
       exists len, length_until_end c w = Some len /\
         safety_corridor b' s' = (if Rleb len (rp_min_length (rb_par _ _ _ b)) then lane_corridor w else Some c)).
  Proof.
    intros b s dt w b' s' H. unfold rss_plan in H. apply bindE in H as ((b1, s1) & I & H). cbn [fst snd] in H.
    apply bindE in H as (s2 & U & H).
    pose proof (initialise_frame _ _ _ _ _ I) as (Fn & Fs & Fe & Fp & _).
    assert (J : rb_init _ _ _ b1 = match rb_init _ _ _ b with Some c => Some c | None => lane_corridor w end /\
                safety_corridor b s1 = match rb_init _ _ _ b with Some _ => safety_corridor b s | None => lane_corridor w end).
    { unfold initialise in I. destruct (rb_init _ _ _ b) eqn:Ib; [injection I as <- <-; split; [exact Ib|reflexivity]|].
      destruct (unique_corridors w); [|discriminate]. injection I as <- <-. split; [reflexivity|].
      unfold safety_corridor, safety_of. cbn. now rewrite Nat.eqb_refl. }
    destruct J as (J1 & J2). rewrite <- J1, <- J2.
    assert (K : exists c, safety_corridor b s1 = Some c /\ exists len, length_until_end c w = Some len /\
                safety_corridor b s2 = (if Rleb len (rp_min_length (rb_par _ _ _ b)) then lane_corridor w else Some c)).
    { unfold update_corridor in U. unfold safety_corridor, safety_of. rewrite Fs, Fp in U.
      destruct (sa_init _ _ _ (st_safety _ _ _ _ _ s1 (rb_safety _ _ _ b))) as [c|] eqn:Q; [|discriminate]. exists c. split; [reflexivity|].
      destruct (length_until_end c w) as [len|]; [|discriminate]. exists len. split; [reflexivity|].
      destruct (Rleb len _); injection U as <-; [cbn; now rewrite Nat.eqb_refl|exact Q]. }
    destruct K as (c & K1 & len & K2 & K3).
    assert (G : rb_nominal _ _ _ b' = rb_nominal _ _ _ b /\ rb_safety _ _ _ b' = rb_safety _ _ _ b /\ rb_par _ _ _ b' = rb_par _ _ _ b /\
                rb_init _ _ _ b' = rb_init _ _ _ b1 /\ safety_corridor b s' = safety_corridor b s2).
    { destruct (lane_corridor w); [|injection H as <- <-; cbn; auto].
      destruct (evaluate _ w) as [e [verdict|]]; [|discriminate]. cbn [bind] in H.
      apply bindE in H as (lim & _ & H). apply bindE in H as (ok & -> & H). cbn zeta in H. rewrite Fp, Fn, Fs in H.
      destruct (ok || _).
      - apply bindE in H as (t' & P & H). injection H as <- <-. cbn. auto.
      - apply bindE in H as ((sa', h') & P & H). injection H as <- <-. cbn.
        repeat split; auto. unfold safety_corridor, safety_of. cbn. rewrite Nat.eqb_refl.
        unfold safety_plan in P. destruct (track _ dt w); [|discriminate]. now injection P as <- <-. }
    destruct G as (G1 & G2 & G3 & G4 & G5). repeat split; auto.
    exists c. split; [exact K1|]. exists len. split; [exact K2|]. rewrite <- K3. rewrite <- G5. unfold safety_corridor, safety_of. now rewrite G2.
  Qed.

  (** C64. The safety corridor in effect after any number of steps is the corridor the agent drove in at one of them: the first, or
      the last step at which the remaining length of the safety corridor was at most the configured minimum. *)
  Definition near_end (b : beh) (c : C) (w : W) : Prop := exists len, length_until_end c w = Some len /\ len <= rp_min_length (rb_par _ _ _ b).
  Theorem C64_safety_corridor : forall b s dt0 w0 l b' s', rb_init _ _ _ b = None -> run b s ((dt0, w0) :: l) = Some (b', s') ->
    exists l1 dt w l2, (dt0, w0) :: l = l1 ++ (dt, w) :: l2 /\ safety_corridor b' s' = lane_corridor w /\
      (l1 = [] \/ exists c, near_end b c w) /\
      forall c, lane_corridor w = Some c -> Forall (fun x => ~ near_end b c (snd x)) l2.
  Proof.
    intros b s dt0 w0 l. revert dt0 w0. 
    assert (St : forall l b s b' s', rb_init _ _ _ b <> None -> run b s l = Some (b', s') ->
      rb_par _ _ _ b' = rb_par _ _ _ b /\
      ((safety_corridor b' s' = safety_corridor b s /\ forall c, safety_corridor b s = Some c -> Forall (fun x => ~ near_end b c (snd x)) l) \/
       exists l1 dt w l2, l = l1 ++ (dt, w) :: l2 /\ safety_corridor b' s' = lane_corridor w /\ (exists c, near_end b c w) /\
       forall c, lane_corridor w = Some c -> Forall (fun x => ~ near_end b c (snd x)) l2)).
    { induction l0 as [|(dt, w) l0 IH]; intros b1 s1 b' s' I H.
      - injection H as <- <-. split; [reflexivity|]. left. split; [reflexivity|]. intros; constructor.
      - cbn [run] in H. destruct (plan b1 s1 dt w) as [(b2, s2)|] eqn:P; [|discriminate].
        destruct (plan_pointers _ _ _ _ _ _ P) as (_ & _ & Pp & Pi & c & Pc & len & Pl & Ps).
        destruct (rb_init _ _ _ b1) as [i|] eqn:Ib; [|congruence].
        destruct (IH b2 s2 b' s') as (Rp & RR); [rewrite Pi; discriminate|exact H|]. split; [congruence|].
        assert (NE : forall c x, near_end b2 c x <-> near_end b1 c x) by (intros; unfold near_end; now rewrite Pp).
        assert (NEF : forall c (l : list (R * W)), Forall (fun x => ~ near_end b2 c (snd x)) l -> Forall (fun x => ~ near_end b1 c (snd x)) l).
        { intros c' l' F. eapply Forall_impl; [|exact F]. intros x K K'. apply K, NE, K'. }
        destruct RR as [(R1 & R2)|(l1 & dt' & w' & l2 & -> & R1 & (c' & R2) & R3)].
        + destruct (Rleb_spec len (rp_min_length (rb_par _ _ _ b1))) as [Le|Le].
          * right. exists [], dt, w, l0. split; [reflexivity|]. split; [congruence|]. split; [exists c, len; auto|].
            intros c' Lc. apply NEF, R2. congruence.
          * left. split; [congruence|]. intros c' Hc'. rewrite Pc in Hc'. injection Hc' as <-. constructor.
            -- cbn. intros (len' & A & B). rewrite Pl in A. injection A as <-. lra.
            -- apply NEF, R2. exact Ps.
        + right. exists ((dt, w) :: l1), dt', w', l2. split; [reflexivity|]. split; [exact R1|]. split; [exists c'; now apply NE|].
          intros c'' Lc. apply NEF, R3, Lc. }
    intros dt0 w0 b' s' I H. cbn [run] in H. destruct (plan b s dt0 w0) as [(b2, s2)|] eqn:P; [|discriminate].
    destruct (plan_pointers _ _ _ _ _ _ P) as (_ & _ & Pp & Pi & c & Pc & len & Pl & Ps). rewrite I in Pi, Pc.
    assert (NE : forall c x, near_end b2 c x <-> near_end b c x) by (intros; unfold near_end; now rewrite Pp).
    assert (NEF : forall c (l : list (R * W)), Forall (fun x => ~ near_end b2 c (snd x)) l -> Forall (fun x => ~ near_end b c (snd x)) l).
    { intros c' l' F. eapply Forall_impl; [|exact F]. intros x K K'. apply K, NE, K'. }
    assert (Ps' : safety_corridor b2 s2 = lane_corridor w0) by (rewrite Ps, Pc; now destruct (Rleb _ _)).
    destruct (St l b2 s2 b' s') as (Rp & RR); [rewrite Pi, Pc; discriminate|exact H|].
    destruct RR as [(R1 & R2)|(l1 & dt' & w' & l2 & -> & R1 & (c' & R2) & R3)].
    - exists [], dt0, w0, l. split; [reflexivity|]. split; [congruence|]. split; [auto|].
      intros c' Lc. apply NEF, R2. congruence.
    - exists ((dt0, w0) :: l1), dt', w', l2. split; [reflexivity|]. split; [exact R1|]. split; [right; exists c'; now apply NE|].
      intros c'' Lc. apply NEF, R3, Lc.
  Qed.

  (** C64. In particular, while the corridor of the first step has more than the minimum length left, the emergency manoeuvre stays
      in it, whatever lane the agent is in. *)
  Theorem C64_safety_corridor_kept : forall b s dt0 w0 l b' s' c0, rb_init _ _ _ b = None -> lane_corridor w0 = Some c0 ->
    run b s ((dt0, w0) :: l) = Some (b', s') -> Forall (fun x => ~ near_end b c0 (snd x)) ((dt0, w0) :: l) ->
    safety_corridor b' s' = Some c0.
  Proof.
    intros b s dt0 w0 l b' s' c0 I L H F. cbn [run] in H. destruct (plan b s dt0 w0) as [(b2, s2)|] eqn:P; [|discriminate].
    inversion F as [|? ? F0 F']; subst. cbn [snd] in F0.
    destruct (plan_pointers _ _ _ _ _ _ P) as (_ & _ & Pp & Pi & c & Pc & len & Pl & Ps). rewrite I in Pi, Pc.
    assert (c = c0) by congruence. subst c.
    assert (Pi' : rb_init _ _ _ b2 = Some c0) by congruence.
    assert (Ps' : safety_corridor b2 s2 = Some c0) by (rewrite Ps, Pc; now destruct (Rleb _ _)).
    clear Ps. revert b2 s2 P Pp Pi Pi' Ps' H. induction l as [|(dt, w) l IH]; intros b2 s2 P Pp Pi Pi' Ps' H; [injection H as <- <-; exact Ps'|].
    cbn [run] in H. destruct (plan b2 s2 dt w) as [(b3, s3)|] eqn:P3; [|discriminate].
    destruct (plan_pointers _ _ _ _ _ _ P3) as (_ & _ & Qp & Qi & c & Qc & len' & Ql & Qs). rewrite Pi' in Qi, Qc. rewrite Ps' in Qc. injection Qc as <-.
    inversion F' as [|? ? F1 F2]; subst. cbn [snd] in F1.
    assert (S3 : safety_corridor b3 s3 = Some c0).
    { rewrite Qs. destruct (Rleb_spec len' (rp_min_length (rb_par _ _ _ b2))) as [Le|]; [|reflexivity].
      exfalso. apply F1. exists len'. rewrite <- Pp. auto. }
    clear - IH F0 F2 Qp Pp Qi Pi S3 H F Pi' Pc. 
    assert (G : forall l b3 s3, Forall (fun x => ~ near_end b c0 (snd x)) l -> rb_par _ _ _ b3 = rb_par _ _ _ b -> rb_init _ _ _ b3 = Some c0 ->
      safety_corridor b3 s3 = Some c0 -> run b3 s3 l = Some (b', s') -> safety_corridor b' s' = Some c0).
    { induction l0 as [|(dt', w') l0 IH0]; intros b4 s4 Fl Pl Il Sl Hl; [injection Hl as <- <-; exact Sl|].
      cbn [run] in Hl. destruct (plan b4 s4 dt' w') as [(b5, s5)|] eqn:P5; [|discriminate].
      destruct (plan_pointers _ _ _ _ _ _ P5) as (_ & _ & Rp & Ri & c & Rc & len & Rl & Rs). rewrite Il in Ri, Rc. rewrite Sl in Rc. injection Rc as <-.
      inversion Fl as [|? ? G1 G2]; subst. apply (IH0 b5 s5); auto; [congruence|].
      rewrite Rs. destruct (Rleb_spec len (rp_min_length (rb_par _ _ _ b4))) as [Le|]; [|reflexivity].
      exfalso. apply G1. exists len. rewrite <- Pl. auto. }
    apply (G l b3 s3); auto; congruence.
  Qed.

  (* ---------------------------------------------------------------- T4: undefined steps *)
  (** C64. The first planning step must find the agent in a lane, and the evaluator must reach a verdict. *)
  Theorem C64_undefined_first_step_off_lane : forall b s dt w, rb_init _ _ _ b = None -> lane_corridor w = None -> plan b s dt w = None.
  Proof.
    intros b s dt w I L. destruct (plan b s dt w) as [(b', s')|] eqn:P; [|reflexivity].
    destruct (plan_pointers _ _ _ _ _ _ P) as (_ & _ & _ & _ & c & Pc & _). rewrite I in Pc. congruence.
  Qed.
  Theorem C64_undefined_without_verdict : forall b s dt w c e, lane_corridor w = Some c -> evaluate (eval_of b s) w = (e, Some None) -> plan b s dt w = None.
  Proof.
    intros b s dt w c e L H. destruct (plan b s dt w) as [(b', s')|] eqn:P; [|reflexivity].
    destruct (C64_status _ _ _ _ _ _ _ L P) as (ok & K & _). congruence.
  Qed.
  (** C64. A step that loses the lane near the end of the safety corridor makes every later step undefined. *)
  Theorem C64_undefined_after_losing_the_lane : forall b s dt w b' s' c len dt2 w2, rb_init _ _ _ b <> None -> lane_corridor w = None ->
    safety_corridor b s = Some c -> length_until_end c w = Some len -> len <= rp_min_length (rb_par _ _ _ b) ->
    plan b s dt w = Some (b', s') -> rb_bstatus _ _ _ b' = EXPIRED /\ plan b' s' dt2 w2 = None.
  Proof.
    intros b s dt w b' s' c len dt2 w2 I L Sc Hl Le P.
    split; [apply (C64_expired _ _ _ _ _ _ L P)|].
    destruct (plan_pointers _ _ _ _ _ _ P) as (_ & _ & Pp & Pi & c' & Pc & len' & Pl & Ps).
    destruct (rb_init _ _ _ b) as [i|]; [|congruence]. rewrite Sc in Pc. injection Pc as <-. rewrite Hl in Pl. injection Pl as <-.
    destruct (plan b' s' dt2 w2) as [(b3, s3)|] eqn:P3; [|reflexivity].
    destruct (plan_pointers _ _ _ _ _ _ P3) as (_ & _ & _ & _ & c3 & Pc3 & _). rewrite Pi, Ps in Pc3.
    destruct (Rleb_spec len (rp_min_length (rb_par _ _ _ b))); [congruence|lra].
  Qed.
End RssBehavior.

(* ------------------------------------------------------------------------- instances *)
(** Toy: corridors, worlds (lane, verdict, remaining length) and trackers that count their steps. *)
Record tworld : Type := mkTW { tw_lane : option nat; tw_verdict : option bool; tw_len : R; tw_time : R }.
Definition toy_track (t : tracker nat nat nat nat) (dt : R) (w : tworld) : option (tracker nat nat nat nat) :=
  Some (mkTr _ _ _ _ (S (tr_model _ _ _ _ t)) (tr_corr _ _ _ _ t) (tr_limits _ _ _ _ t)
             (match tr_corr _ _ _ _ t with Some c => c | None => 100%nat end) (S (tr_model _ _ _ _ t))).
Definition toy_plan := rss_plan nat tworld nat unit nat nat Nat.eqb toy_track (fun e w => (e, Some (tw_verdict w)))
  (fun _ _ _ _ => None) tw_lane (fun _ => Some [1; 2; 3]%nat) (fun _ w => Some (tw_len w)) tw_time.
Definition toy_run := run nat tworld nat unit nat nat Nat.eqb toy_track (fun e w => (e, Some (tw_verdict w)))
  (fun _ _ _ _ => None) tw_lane (fun _ => Some [1; 2; 3]%nat) (fun _ w => Some (tw_len w)) tw_time.
Definition toy_lim : acc_limits := mkAL 0 0 0 0.
Definition toy_beh : rss_beh nat nat nat :=
  mkRB nat nat nat 0%nat 0%nat 0%nat (mkRP 1 true true false) None NOMINAL_BEHAVIOR 0 (toy_lim, toy_lim) 0%nat 0%nat VALID.
Definition toy_store : store nat nat unit nat nat :=
  mkStore nat nat unit nat nat (mkHeap nat nat unit nat nat (fun i => mkTr nat nat nat nat (10 * i)%nat None None 0%nat 0%nat) (fun _ => tt))
    (fun _ => mkSa nat nat nat 1%nat None 0%nat 0%nat).
Definition safe_w : tworld := mkTW (Some 1%nat) (Some true) 50 1.
Definition unsafe_w : tworld := mkTW (Some 2%nat) (Some false) 40 2.
Definition end_w : tworld := mkTW None (Some true) (1 / 2) 3.

Ltac toy := unfold toy_run, toy_plan, rss_plan, initialise, update_corridor; cbn.
Lemma leb50 : Rleb 50 1 = false. Proof. destruct (Rleb_spec 50 1); [lra|reflexivity]. Qed.
Lemma leb40 : Rleb 40 1 = false. Proof. destruct (Rleb_spec 40 1); [lra|reflexivity]. Qed.
Lemma leb05 : Rleb (1 / 2) 1 = true. Proof. destruct (Rleb_spec (1 / 2) 1); [reflexivity|lra]. Qed.

(** A safe step in lane 1 follows the nominal target (the last other lane, 3); an unsafe step in lane 2 goes back to lane 1; then
    the lane is lost near the end of the corridor and the next step is undefined. *)
Example C64_nonvacuous :
  rb_init _ _ _ toy_beh = None /\ separate nat nat unit nat nat toy_beh toy_store /\
  (exists b1 s1, toy_plan toy_beh toy_store 1 safe_w = Some (b1, s1) /\ rb_status _ _ _ b1 = NOMINAL_BEHAVIOR /\ rb_traj _ _ _ b1 = 3%nat /\ rb_act _ _ _ b1 = 1%nat /\
   exists b2 s2, toy_plan b1 s1 1 unsafe_w = Some (b2, s2) /\ rb_status _ _ _ b2 = SAFETY_BEHAVIOR /\ rb_traj _ _ _ b2 = 1%nat /\ rb_act _ _ _ b2 = 11%nat /\
     rb_violation _ _ _ b2 = 2 /\
   exists b3 s3, toy_plan b2 s2 1 end_w = Some (b3, s3) /\ rb_bstatus _ _ _ b3 = EXPIRED /\ toy_plan b3 s3 1 safe_w = None).
Proof.
  split; [reflexivity|]. split; [cbv; discriminate|].
  toy. rewrite leb50. cbn. eexists _, _. split; [reflexivity|]. cbn. repeat (split; [reflexivity|]).
  rewrite leb40. cbn. eexists _, _. split; [reflexivity|]. cbn. repeat (split; [reflexivity|]).
  rewrite leb05. cbn. eexists _, _. split; [reflexivity|]. cbn. split; reflexivity.
Qed.
Example C64_run_nonvacuous : exists b' s', toy_run toy_beh toy_store [(1, safe_w); (1, unsafe_w)] = Some (b', s') /\
  Forall (fun x => ~ near_end nat tworld nat nat (fun _ w => Some (tw_len w)) toy_beh 1%nat (snd x)) [(1, safe_w); (1, unsafe_w)].
Proof.
  destruct C64_nonvacuous as (_ & _ & b1 & s1 & E1 & _ & _ & _ & b2 & s2 & E2 & _).
  exists b2, s2. split; [unfold toy_run; cbn [run]; unfold toy_plan in E1, E2; rewrite E1, E2; reflexivity|].
  repeat constructor; cbn; intros (len & K & Le); cbn in *; injection K as <-; lra.
Qed.

(** C64, refuted part: a clone is not independent: planning with it changes what the original plans next. *)
Theorem C64_clone_is_independent_refuted : ~ (forall b s dt w b1 s1 bc sc b2 s2,
  toy_plan (clone_rss _ _ _ b) s dt w = Some (bc, sc) ->     (* the clone plans first *)
  toy_plan b s dt w = Some (b1, s1) -> toy_plan b sc dt w = Some (b2, s2) -> rb_act _ _ _ b1 = rb_act _ _ _ b2).
Proof.
  intro H.
  assert (E : exists b1 s1, toy_plan toy_beh toy_store 1 safe_w = Some (b1, s1) /\ rb_act _ _ _ b1 = 1%nat /\
              exists b2 s2, toy_plan toy_beh s1 1 safe_w = Some (b2, s2) /\ rb_act _ _ _ b2 = 2%nat).
  { toy. rewrite leb50. cbn. eexists _, _. split; [reflexivity|]. split; [reflexivity|]. cbn.
    eexists _, _. split; [reflexivity|]. reflexivity. }
  destruct E as (b1 & s1 & E1 & A1 & b2 & s2 & E2 & A2).
  pose proof (H toy_beh toy_store 1 safe_w b1 s1 b1 s1 b2 s2 E1 E1 E2). congruence.
Qed.
Print Assumptions C64_status. Print Assumptions C64_limits. Print Assumptions C64_expired. Print Assumptions C64_executes. Print Assumptions C64_safety_corridor.
Print Assumptions C64_safety_corridor_kept. Print Assumptions C64_undefined_first_step_off_lane.
Print Assumptions C64_undefined_without_verdict. Print Assumptions C64_undefined_after_losing_the_lane.
Print Assumptions C64_clone_is_independent_refuted.
