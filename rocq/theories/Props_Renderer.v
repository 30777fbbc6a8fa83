(* C107: primitives of a world's renderer. *)
From Coq Require Import String List NArith QArith Bool Arith Lia DecimalString DecimalN.
From Verif Require Import Model_Renderer.
Import ListNotations.
Local Open Scope string_scope.
Local Open Scope nat_scope.

(* --- specification --- *)
Definition live (h : heap) (w : bworld) : Prop := bw_rend w < length h.
Definition prims (h : heap) (w : bworld) (name : string) : list prim := buffer (getr h (bw_rend w)) name.
Definition lane_drawn (l : lane) (p : prim) : Prop :=
  p_obj p = OLane (l_id l) /\ p_conf p "stroke_color" = Some (if l_dashed l then DashedColour else SolidColour) /\
  p_conf p "stroke_width" = Some (if l_dashed l then DashedWidth else SolidWidth).
Definition agent_drawn (ego : bool) (a : N * (Q * Q)) (p : prim) : Prop :=
  p_obj p = OAgent (fst a) /\ p_conf p "stroke_color" = Some (if ego then EgoStroke else OtherStroke) /\
  p_conf p "fill_color" = Some (if ego then EgoFill else OtherFill) /\ p_conf p "height" = Some Height /\
  p_conf p "agent_id" = Some (AgentIdText (fst a)).
(* what drawing the world w for ego adds under a name *)
Definition added (w : bworld) (ego : option N) (name : string) (l : list prim) : Prop :=
  (name = "MAP_LINE" -> Forall2 lane_drawn (bw_lanes w) l) /\
  (forall e, ego = Some e ->
     (name = "EGO_AGENT" -> Forall2 (agent_drawn true) (filter (fun a => N.eqb (fst a) e) (bw_agents w)) l) /\
     (name = "OTHER_AGENT" -> Forall2 (agent_drawn false) (filter (fun a => negb (N.eqb (fst a) e)) (bw_agents w)) l) /\
     (name = "EGO_AGENT_STATE" -> exists st p, In (e, st) (bw_agents w) /\ l = [p] /\ p_obj p = OState e st)) /\
  (ego = None \/ (name <> "EGO_AGENT" /\ name <> "OTHER_AGENT" /\ name <> "EGO_AGENT_STATE") -> name <> "MAP_LINE" -> l = []).

(* --- proofs --- *)
Lemma putr_len h a r : length (putr h a r) = length h.
Proof. revert a. induction h; intros [|a0]; cbn; auto. Qed.
Lemma getr_put h a r b : a < length h -> getr (putr h a r) b = if Nat.eqb b a then r else getr h b.
Proof.
  unfold getr. revert a b. induction h as [|x h IH]; intros [|a] [|b] L; cbn in *; try lia; auto. apply IH. lia.
Qed.
Lemma add_prim_len h a n p : length (add_prim h a n p) = length h.
Proof. apply putr_len. Qed.
Definition grown (h h' : heap) (a : nat) (f : string -> list prim) : Prop :=
  length h' = length h /\ (forall b, b <> a -> getr h' b = getr h b) /\ children (getr h' a) = children (getr h a) /\
  forall n, buffer (getr h' a) n = (buffer (getr h a) n ++ f n)%list.
Lemma grown_refl h a : grown h h a (fun _ => []).
Proof. repeat split; auto. intros n. now rewrite app_nil_r. Qed.
Lemma grown_trans h1 h2 h3 a f g : grown h1 h2 a f -> grown h2 h3 a g -> grown h1 h3 a (fun n => (f n ++ g n)%list).
Proof.
  intros (A1 & B1 & C1 & D1) (A2 & B2 & C2 & D2). split; [congruence|]. split; [intros b N; rewrite B2, B1; auto|].
  split; [congruence|]. intros n. rewrite D2, D1. now rewrite app_assoc.
Qed.
Lemma grown_ext h h' a f g : (forall n, f n = g n) -> grown h h' a f -> grown h h' a g.
Proof. intros E (A & B & C & D). repeat split; auto. intros n. now rewrite D, E. Qed.
Lemma add_prim_grown h a n p : a < length h -> grown h (add_prim h a n p) a (fun x => if String.eqb x n then [p] else []).
Proof.
  intros L. unfold add_prim. split; [apply putr_len|]. split; [|split].
  - intros b Nb. rewrite getr_put by auto. destruct (Nat.eqb_spec b a); congruence.
  - rewrite getr_put by auto. now rewrite Nat.eqb_refl.
  - intros x. rewrite getr_put by auto. rewrite Nat.eqb_refl. cbn [buffer]. destruct (String.eqb x n); [reflexivity|now rewrite app_nil_r].
Qed.
Lemma fold_grown {X} (nm : X -> string) (pr : X -> prim) a l : forall h, a < length h ->
  grown h (fold_left (fun h x => add_prim h a (nm x) (pr x)) l h) a (fun n => map pr (filter (fun x => String.eqb n (nm x)) l)).
Proof.
  induction l as [|x l IH]; intros h L; [apply grown_refl|]. cbn [fold_left].
  eapply grown_ext; [|eapply grown_trans; [apply (add_prim_grown h a (nm x) (pr x) L)|apply IH; now rewrite add_prim_len]].
  intros n. cbn [filter]. destruct (String.eqb n (nm x)); reflexivity.
Qed.
Lemma draw_map_grown h w : live h w -> grown h (draw_map h w) (bw_rend w) (fun n => if String.eqb n "MAP_LINE" then map lane_prim (bw_lanes w) else []).
Proof.
  intros L. unfold draw_map. eapply grown_ext; [|apply (fold_grown (fun _ => "MAP_LINE") lane_prim); exact L].
  intros n. cbv beta. destruct (String.eqb n "MAP_LINE").
  - f_equal. induction (bw_lanes w); cbn; congruence.
  - induction (bw_lanes w); cbn; auto.
Qed.
Lemma fold_left_ext {X Y} (f g : X -> Y -> X) l : (forall x y, f x y = g x y) -> forall x, fold_left f l x = fold_left g l x.
Proof. intros E. induction l as [|y l IH]; intros x; cbn; auto. now rewrite E, IH. Qed.
Lemma draw_agents_grown h w ego : live h w -> grown h (draw_agents h w ego) (bw_rend w)
  (fun n => if String.eqb n "EGO_AGENT" then map (fun a => agent_prim true (fst a)) (filter (fun a => N.eqb (fst a) ego) (bw_agents w))
            else if String.eqb n "OTHER_AGENT" then map (fun a => agent_prim false (fst a)) (filter (fun a => negb (N.eqb (fst a) ego)) (bw_agents w))
            else []).
Proof.
  intros L. unfold draw_agents.
  rewrite (fold_left_ext _ (fun h (x : N * (Q * Q)) => add_prim h (bw_rend w) (if N.eqb (fst x) ego then "EGO_AGENT" else "OTHER_AGENT") (agent_prim (N.eqb (fst x) ego) (fst x))));
    [|intros x y; destruct (N.eqb (fst y) ego); reflexivity].
  eapply grown_ext; [|apply (fold_grown (fun x : N * (Q * Q) => if N.eqb (fst x) ego then "EGO_AGENT" else "OTHER_AGENT")); exact L].
  intros n. cbv beta. induction (bw_agents w) as [|x l IH]; [destruct (String.eqb n "EGO_AGENT"), (String.eqb n "OTHER_AGENT"); reflexivity|].
  cbn [filter]. destruct (N.eqb (fst x) ego) eqn:E; cbn [negb].
  - destruct (String.eqb n "EGO_AGENT") eqn:N1; cbn [map]; [rewrite E, IH; reflexivity|exact IH].
  - destruct (String.eqb n "OTHER_AGENT") eqn:N2.
    + apply String.eqb_eq in N2. subst n. cbn [String.eqb Ascii.eqb Bool.eqb] in *. cbn [map]. rewrite E, IH. reflexivity.
    + exact IH.
Qed.
Lemma agent_state_in i l st : agent_state i l = Some st -> In (i, st) l.
Proof.
  induction l as [|[j s] l IH]; cbn; [discriminate|]. destruct (N.eqb_spec i j); [intros E; inversion E; subst; auto|auto].
Qed.
Lemma agent_state_none i l : agent_state i l = None <-> ~ In i (map fst l).
Proof.
  induction l as [|[j s] l IH]; cbn; [tauto|]. destruct (N.eqb_spec i j) as [->|Ne]; [split; [discriminate|tauto]|]. rewrite IH. split; [intros H [X|X]; [congruence|auto]|tauto].
Qed.
Lemma F2_map {A B} (P : A -> B -> Prop) f l : (forall x, P x (f x)) -> Forall2 P l (map f l).
Proof. intros H. induction l; cbn; auto. Qed.
Lemma lane_prim_ok l : lane_drawn l (lane_prim l).
Proof. unfold lane_drawn, lane_prim. destruct (l_dashed l); cbn; auto. Qed.
Lemma agent_prim_ok b a : agent_drawn b a (agent_prim b (fst a)).
Proof. unfold agent_drawn, agent_prim. destruct b; cbn; repeat split. Qed.

(* a drawing adds the lanes, agents and the state of the evaluated agent to the primitives of this world's renderer, and
   changes nothing else *)
Theorem C107_draw h w evals h' e : live h w -> buffered_draw h w evals = (h', e) ->
  (forall a, a <> bw_rend w -> getr h' a = getr h a) /\ length h' = length h /\
  children (getr h' (bw_rend w)) = children (getr h (bw_rend w)) /\
  exists ego, (forall name, exists l, prims h' w name = (prims h w name ++ l)%list /\ added w ego name l) /\
    ((exists i r, ego = Some i /\ evals = Some (i :: r) /\ In i (map fst (bw_agents w)) /\ e = None) \/
     (ego = None /\ e <> None /\ (evals = None \/ evals = Some [] \/ exists i r, evals = Some (i :: r) /\ ~ In i (map fst (bw_agents w))))).
Proof.
  intros L E. unfold buffered_draw in E. cbv zeta in E. pose proof (draw_map_grown h w L) as G1.
  assert (Fail : forall x, (draw_map h w, Some x) = (h', e) -> (evals = None \/ evals = Some [] \/ exists i r, evals = Some (i :: r) /\ ~ In i (map fst (bw_agents w))) ->
    (forall a, a <> bw_rend w -> getr h' a = getr h a) /\ length h' = length h /\
    children (getr h' (bw_rend w)) = children (getr h (bw_rend w)) /\
    exists ego, (forall name, exists l, prims h' w name = (prims h w name ++ l)%list /\ added w ego name l) /\
    ((exists i r, ego = Some i /\ evals = Some (i :: r) /\ In i (map fst (bw_agents w)) /\ e = None) \/
     (ego = None /\ e <> None /\ (evals = None \/ evals = Some [] \/ exists i r, evals = Some (i :: r) /\ ~ In i (map fst (bw_agents w)))))).
  { intros x X Hc. inversion X; subst h' e. destruct G1 as (A & B & C & D). repeat (split; auto). exists None. split.
    - intros name. eexists. split; [apply D|]. split; [|split].
      + intros ->. cbn. apply F2_map, lane_prim_ok.
      + discriminate.
      + intros _ N. destruct (String.eqb_spec name "MAP_LINE"); [contradiction|reflexivity].
    - right. repeat split; auto. discriminate. }
  destruct evals as [[|ego r]|]; [apply (Fail _ E); auto| |apply (Fail _ E); auto].
  destruct (agent_state ego (bw_agents w)) as [st|] eqn:S.
  2:{ apply (Fail _ E). right. right. exists ego, r. split; auto. now apply agent_state_none. }
  inversion E; subst h' e. clear E Fail.
  pose proof G1 as (A1 & _). assert (L1 : live (draw_map h w) w) by (unfold live; rewrite A1; exact L).
  pose proof (draw_agents_grown (draw_map h w) w ego L1) as G2. pose proof G2 as (A2 & _).
  assert (L2 : bw_rend w < length (draw_agents (draw_map h w) w ego)) by (rewrite A2; exact L1).
  pose proof (add_prim_grown _ _ "EGO_AGENT_STATE" (new_prim (OState ego st)) L2) as G3.
  destruct (grown_trans _ _ _ _ _ _ (grown_trans _ _ _ _ _ _ G1 G2) G3) as (A & B & C & D).
  repeat (split; auto). exists (Some ego). split.
  - intros name. eexists. split; [apply D|]. split; [|split].
    + intros ->. cbn. rewrite !app_nil_r. apply F2_map, lane_prim_ok.
    + intros e X. inversion X; subst e. split; [|split]; intros ->; cbn.
      * rewrite app_nil_r. apply F2_map. intros; apply agent_prim_ok.
      * rewrite app_nil_r. apply F2_map. intros; apply agent_prim_ok.
      * exists st. eexists. split; [now apply agent_state_in|]. split; reflexivity.
    + intros [X|(X & Y & Z)] N; [discriminate|]. destruct (String.eqb_spec name "MAP_LINE"), (String.eqb_spec name "EGO_AGENT"),
        (String.eqb_spec name "OTHER_AGENT"), (String.eqb_spec name "EGO_AGENT_STATE"); try contradiction. reflexivity.
  - left. exists ego, r. repeat split; auto. destruct (in_dec N.eq_dec ego (map fst (bw_agents w))); auto.
    apply agent_state_none in n. congruence.
Qed.

(* primitives pile up: BufferedViewer never clears them *)
Fixpoint draw_many (h : heap) (l : list (bworld * list N)) : heap :=
  match l with [] => h | (w, evals) :: r => draw_many (fst (buffered_draw h w (Some evals))) r end.
Theorem C107_primitives_pile_up h l a name : a < length h ->
  (forall w evals, In (w, evals) l -> bw_rend w = a /\ exists i r, evals = i :: r /\ In i (map fst (bw_agents w))) ->
  exists ls, Forall2 (fun x p => exists i r, snd x = i :: r /\ added (fst x) (Some i) name p) l ls /\
    buffer (getr (draw_many h l) a) name = (buffer (getr h a) name ++ concat ls)%list.
Proof.
  revert h. induction l as [|[w evals] l IH]; intros h L H.
  - exists []. split; auto. cbn. now rewrite app_nil_r.
  - cbn [draw_many]. destruct (H w evals (or_introl eq_refl)) as (Ea & i & r & -> & I).
    destruct (buffered_draw h w (Some (i :: r))) as [h1 e] eqn:B. cbn [fst].
    assert (Lw : live h w) by (unfold live; now rewrite Ea).
    destruct (C107_draw h w _ h1 e Lw B) as (_ & Len & _ & ego & P & [(i' & r' & -> & X & _)|(_ & _ & [X|[X|(i' & r' & X & N)]])]);
      try discriminate; [|inversion X; subst; contradiction].
    inversion X; subst i' r'. destruct (P name) as (p & E & A). unfold prims in E. rewrite Ea in E.
    destruct (IH h1) as (ls & F & E2); [lia|intros w' ev' I'; apply H; now right|].
    exists (p :: ls). split; [constructor; auto; cbn [fst snd]; eauto|]. rewrite E2, E. cbn [concat]. now rewrite app_assoc.
Qed.

(* the world an observer with deviations returns draws into a renderer of its own, found under the agent's id *)
Lemma id_name_inj i j : id_name i = id_name j -> i = j.
Proof.
  unfold id_name. intros E. apply (f_equal NilEmpty.uint_of_string) in E. rewrite !NilEmpty.usu in E. inversion E as [X].
  now apply Unsigned.to_uint_inj.
Qed.
Theorem C107_observed_world_has_its_own_renderer h w i moved h' w' : live h w -> observe h w i moved = (h', w') ->
  live h' w' /\ (forall v, live h v -> bw_rend v <> bw_rend w' /\ live h' v /\ prims h' v = prims h v) /\
  (forall name, prims h' w' name = []) /\
  children (getr h' (bw_rend w)) (id_name i) = Some (bw_rend w') /\
  (forall j, j <> i -> children (getr h' (bw_rend w)) (id_name j) = children (getr h (bw_rend w)) (id_name j)).
Proof.
  intros L E. unfold observe, add_child in E. cbv zeta in E. inversion E; subst h' w'. clear E. unfold live in *. cbn [bw_rend].
  rewrite app_length, putr_len. cbn [length].
  assert (G : forall b, b < length h -> forall h2, length h2 = length h -> getr (h2 ++ [empty_rend])%list b = getr h2 b).
  { intros b Lb h2 L2. unfold getr. apply app_nth1. lia. }
  split; [lia|]. split; [|split; [|split]].
  - intros v Lv. split; [lia|]. split; [lia|]. unfold prims. rewrite G by (auto using putr_len). rewrite getr_put by auto.
    destruct (Nat.eqb_spec (bw_rend v) (bw_rend w)) as [->|_]; reflexivity.
  - intros name. unfold prims, getr. cbn [bw_rend]. rewrite app_nth2 by (rewrite putr_len; lia). rewrite putr_len, Nat.sub_diag. reflexivity.
  - rewrite G by (auto using putr_len). rewrite getr_put, Nat.eqb_refl by auto. cbn [children]. now rewrite String.eqb_refl.
  - intros j Nj. rewrite G by (auto using putr_len). rewrite getr_put, Nat.eqb_refl by auto. cbn [children].
    destruct (String.eqb_spec (id_name j) (id_name i)) as [X|X]; [apply id_name_inj in X; contradiction|reflexivity].
Qed.

(* --- programs --- *)
Definition wf (s : sys) : Prop := Forall (live (s_heap s)) (s_worlds s).
Definition world_of (s : sys) (k : nat) (w : bworld) : Prop := nth_error (s_worlds s) k = Some w.
Definition touches (o : op) : option nat :=
  match o with AddUser k _ _ | DrawBuffered k _ | DrawMP k _ | Clear k => Some k | NewWorld _ _ | Clone _ | ObserveParametric _ _ _ => None end.
Lemma clear_frame h a b : a < length h -> b <> a -> getr (clear h a) b = getr h b.
Proof. intros L N. unfold clear. rewrite getr_put by auto. destruct (Nat.eqb_spec b a); congruence. Qed.
Lemma draw_frame h w ev : live h w -> length (fst (buffered_draw h w ev)) = length h /\ forall b, b <> bw_rend w -> getr (fst (buffered_draw h w ev)) b = getr h b.
Proof.
  intros L. destruct (buffered_draw h w ev) as [h' e] eqn:B. destruct (C107_draw h w ev h' e L B) as (F & Len & _). auto.
Qed.
Lemma mp_frame h w ev h' p x : live h w -> mp_draw h w ev = (h', p, x) -> length h' = length h /\ forall b, b <> bw_rend w -> getr h' b = getr h b.
Proof.
  intros L E. destruct (draw_frame h w ev L) as (Len & F). unfold mp_draw in E. destruct (buffered_draw h w ev) as [h1 [e|]]; cbn [fst] in *.
  - inversion E; subst. auto.
  - cbv zeta in E. destruct (picture_of (getr h1 (bw_rend w))) as [o [e|]]; inversion E; subst; auto.
    split; [unfold clear; now rewrite putr_len|]. intros b N. rewrite clear_frame; auto. unfold live in L. lia.
Qed.
Lemma exec_wf s o : wf s -> wf (exec s o) /\ length (s_heap s) <= length (s_heap (exec s o)) /\
  (exists ext, s_worlds (exec s o) = (s_worlds s ++ ext)%list).
Proof.
  intros W. assert (Wk : forall k w, nth_error (s_worlds s) k = Some w -> live (s_heap s) w).
  { intros k w N. apply (proj1 (Forall_forall _ _) W). eapply nth_error_In; eauto. }
  assert (Up : forall h, length (s_heap s) <= length h -> Forall (live h) (s_worlds s)).
  { intros h L. eapply Forall_impl; [|exact W]. intros w X. unfold live in *. lia. }
  destruct o as [ag ln|k|k i m|k n p|k e|k e|k]; cbn [exec].
  - unfold new_world. cbn [s_heap s_worlds]. rewrite app_length. cbn [length]. split; [|split; [lia|eauto]].
    unfold wf. cbn [s_heap s_worlds]. apply Forall_app. split; [apply Up; rewrite app_length; lia|]. constructor; auto. unfold live. cbn [bw_rend]. rewrite app_length. cbn. lia.
  - destruct (nth_error (s_worlds s) k) as [w|] eqn:N; [|split; auto; split; auto; exists []; now rewrite app_nil_r].
    split; [|split; [auto|cbn; eauto]]. unfold wf. cbn [s_heap s_worlds]. apply Forall_app. split; auto. constructor; auto. apply (Wk k w N).
  - destruct (nth_error (s_worlds s) k) as [w|] eqn:N; [|split; auto; split; auto; exists []; now rewrite app_nil_r].
    destruct (observe (s_heap s) w i m) as [h' w'] eqn:O. pose proof (C107_observed_world_has_its_own_renderer _ _ _ _ _ _ (Wk k w N) O) as (A & B & _).
    assert (L : length (s_heap s) <= length h') by (unfold observe, add_child in O; inversion O; rewrite app_length, putr_len; lia).
    cbn [s_heap s_worlds]. split; [|split; [auto|eauto]]. unfold wf. cbn [s_heap s_worlds]. apply Forall_app. auto.
  - destruct (nth_error (s_worlds s) k) as [w|] eqn:N; [|split; auto; split; auto; exists []; now rewrite app_nil_r].
    cbn [s_heap s_worlds]. unfold wf. cbn [s_heap s_worlds]. rewrite add_prim_len. split; [apply Up; rewrite add_prim_len; lia|]. split; auto. exists []; now rewrite app_nil_r.
  - destruct (nth_error (s_worlds s) k) as [w|] eqn:N; [|split; auto; split; auto; exists []; now rewrite app_nil_r].
    destruct (draw_frame (s_heap s) w e (Wk k w N)) as (L & _). unfold wf. cbn [s_heap s_worlds]. split; [apply Up; lia|]. split; [lia|]. exists []; now rewrite app_nil_r.
  - destruct (nth_error (s_worlds s) k) as [w|] eqn:N; [|split; auto; split; auto; exists []; now rewrite app_nil_r].
    destruct (mp_draw (s_heap s) w e) as [[h' p] x] eqn:M. destruct (mp_frame _ _ _ _ _ _ (Wk k w N) M) as (L & _).
    unfold wf. cbn [s_heap s_worlds]. split; [apply Up; lia|]. split; [lia|]. exists []; now rewrite app_nil_r.
  - destruct (nth_error (s_worlds s) k) as [w|] eqn:N; [|split; auto; split; auto; exists []; now rewrite app_nil_r].
    unfold wf. cbn [s_heap s_worlds]. unfold clear at 1 2. rewrite putr_len. split; [apply Up; unfold clear; rewrite putr_len; lia|]. split; auto. exists []; now rewrite app_nil_r.
Qed.
Lemma exec_all_wf l : forall s, wf s -> wf (exec_all s l) /\ exists ext, s_worlds (exec_all s l) = (s_worlds s ++ ext)%list.
Proof.
  induction l as [|o l IH]; intros s W; cbn.
  - split; auto. exists []. now rewrite app_nil_r.
  - destruct (exec_wf s o W) as (W1 & _ & e1 & E1). destruct (IH _ W1) as (W2 & e2 & E2). unfold exec_all in *. split; auto.
    exists (e1 ++ e2)%list. now rewrite E2, E1, app_assoc.
Qed.
Lemma wf_init : wf init_sys. Proof. constructor. Qed.
(* after any program: an operation on one world changes only primitives of worlds with the same renderer *)
Theorem C107_other_renderers_are_untouched l o k w j v : 
  let s := exec_all init_sys l in
  touches o = Some k -> world_of s k w -> world_of s j v -> bw_rend v <> bw_rend w ->
  world_of (exec s o) j v /\ getr (s_heap (exec s o)) (bw_rend v) = getr (s_heap s) (bw_rend v).
Proof.
  intros s T Nk Nj Ne. destruct (exec_all_wf l init_sys wf_init) as (W & _). fold s in W.
  assert (Lw : live (s_heap s) w) by (apply (proj1 (Forall_forall _ _) W); eapply nth_error_In; eauto). unfold world_of in *.
  destruct o as [ag ln|k'|k' i m|k' n p|k' e|k' e|k']; cbn [touches] in T; inversion T; subst k'; cbn [exec]; rewrite Nk.
  - cbn [s_worlds s_heap]. split; auto. now apply (add_prim_grown (s_heap s) (bw_rend w) n p Lw).
  - cbn [s_worlds s_heap]. split; auto. now apply (draw_frame (s_heap s) w e Lw).
  - destruct (mp_draw (s_heap s) w e) as [[h' p] x] eqn:M. destruct (mp_frame _ _ _ _ _ _ Lw M) as (_ & F). cbn [s_worlds s_heap]. auto.
  - cbn [s_worlds s_heap]. split; auto. now apply clear_frame.
Qed.
(* and a world shares its renderer with an earlier one exactly if it is a clone, of it or of one sharing its renderer *)
Theorem C107_clones_share l o j v n new : 
  let s := exec_all init_sys l in
  world_of s j v -> n = length (s_worlds s) -> world_of (exec s o) n new ->
  (bw_rend new = bw_rend v <-> exists k w, o = Clone k /\ world_of s k w /\ bw_rend w = bw_rend v).
Proof.
  intros s Nj -> Nn. destruct (exec_all_wf l init_sys wf_init) as (W & _). fold s in W.
  assert (Lv : live (s_heap s) v) by (apply (proj1 (Forall_forall _ _) W); eapply nth_error_In; eauto). unfold world_of in *.
  assert (Old : nth_error (s_worlds s) (length (s_worlds s)) = Some new -> False).
  { intros X. assert (Y : nth_error (s_worlds s) (length (s_worlds s)) <> None) by congruence. apply nth_error_Some in Y. lia. }
  assert (New : forall x, nth_error (s_worlds s ++ [x])%list (length (s_worlds s)) = Some new -> new = x).
  { intros x X. rewrite nth_error_app2, Nat.sub_diag in X by lia. inversion X. auto. }
  destruct o as [ag ln|k'|k' i m|k' nm p|k' e|k' e|k']; cbn [exec] in Nn.
  - unfold new_world in Nn. cbn [s_worlds] in Nn. apply New in Nn. subst new. cbn [bw_rend]. unfold live in Lv.
    split; [intros X; lia|intros (k & w & X & _); discriminate].
  - destruct (nth_error (s_worlds s) k') as [w|] eqn:Nk; [|now apply Old in Nn]. cbn [s_worlds] in Nn. apply New in Nn. subst new.
    unfold clone_world. split; [intros X; eauto|]. intros (k & w' & X & N' & Y). inversion X; subst k. congruence.
  - destruct (nth_error (s_worlds s) k') as [w|] eqn:Nk; [|now apply Old in Nn].
    assert (Lw : live (s_heap s) w) by (apply (proj1 (Forall_forall _ _) W); eapply nth_error_In; eauto).
    destruct (observe (s_heap s) w i m) as [h' w'] eqn:O. cbn [s_worlds] in Nn. apply New in Nn. subst new.
    destruct (C107_observed_world_has_its_own_renderer _ _ _ _ _ _ Lw O) as (_ & F & _). destruct (F v Lv) as (Ne & _).
    split; [intros X; congruence|intros (k & w2 & X & _); discriminate].
  - destruct (nth_error (s_worlds s) k'); now apply Old in Nn.
  - destruct (nth_error (s_worlds s) k'); now apply Old in Nn.
  - destruct (nth_error (s_worlds s) k') as [w|]; [destruct (mp_draw (s_heap s) w e) as [[h' p] x]|]; now apply Old in Nn.
  - destruct (nth_error (s_worlds s) k'); now apply Old in Nn.
Qed.

(* --- pictures of BufferedMPViewer --- *)
Definition clean (r : rend) : Prop := (forall n, buffer r n = []) /\ forall n, children r n = None.
(* ego, lanes, others; centred on the ego *)
Definition shows (w : bworld) (ego : N) (p : mpicture) : Prop :=
  m_objs p = (map (fun a => OAgent (fst a)) (filter (fun a => N.eqb (fst a) ego) (bw_agents w)) ++ map (fun l => OLane (l_id l)) (bw_lanes w) ++
              map (fun a => OAgent (fst a)) (filter (fun a => negb (N.eqb (fst a) ego)) (bw_agents w)))%list /\
  exists st, m_centre p = Some st /\ In (ego, st) (bw_agents w).
Lemma draw_prims_lanes l ps : Forall2 lane_drawn l ps -> draw_prims ["stroke_color"] ps = (map (fun x => OLane (l_id x)) l, None).
Proof.
  induction 1 as [|x p l ps (A & B & C) H IH]; auto. cbn [draw_prims forallb]. rewrite B. cbn [andb]. rewrite IH, A. reflexivity.
Qed.
Lemma draw_prims_agents b l ps : Forall2 (agent_drawn b) l ps -> draw_prims ["fill_color"; "stroke_color"] ps = (map (fun x => OAgent (fst x)) l, None).
Proof.
  induction 1 as [|x p l ps (A & B & C & _) H IH]; auto. cbn [draw_prims forallb]. rewrite B, C. cbn [andb]. rewrite IH, A. reflexivity.
Qed.
Lemma mp_draw_ok h w i r : live h w -> clean (getr h (bw_rend w)) -> In i (map fst (bw_agents w)) ->
  exists h' p, mp_draw h w (Some (i :: r)) = (h', p, None) /\ shows w i p /\ clean (getr h' (bw_rend w)) /\ length h' = length h.
Proof.
  intros L (Cb & Cc) I. unfold mp_draw. destruct (buffered_draw h w (Some (i :: r))) as [h1 e] eqn:B.
  destruct (C107_draw h w _ h1 e L B) as (_ & Len & _ & ego & P & [(i' & r' & -> & X & _ & ->)|(_ & _ & [X|[X|(i' & r' & X & N)]])]);
    try discriminate; [|inversion X; subst; contradiction]. inversion X; subst i' r'. clear X.
  assert (Bn : forall name, exists l, buffer (getr h1 (bw_rend w)) name = l /\ added w (Some i) name l).
  { intros name. destruct (P name) as (l & E & A). exists l. split; auto. unfold prims in E. rewrite E, Cb. reflexivity. }
  assert (Other : forall name, name <> "MAP_LINE" -> name <> "EGO_AGENT" -> name <> "OTHER_AGENT" -> name <> "EGO_AGENT_STATE" -> buffer (getr h1 (bw_rend w)) name = []).
  { intros name N1 N2 N3 N4. destruct (Bn name) as (l & -> & (_ & _ & H)). auto. }
  destruct (Bn "EGO_AGENT") as (le & Ee & (_ & He & _)). destruct (Bn "MAP_LINE") as (lm & Em & (Hm & _)).
  destruct (Bn "OTHER_AGENT") as (lo & Eo & (_ & Ho & _)). destruct (Bn "EGO_AGENT_STATE") as (ls & Es & (_ & Hs & _)).
  destruct (He i eq_refl) as (He' & _). destruct (Ho i eq_refl) as (_ & Ho' & _). destruct (Hs i eq_refl) as (_ & _ & Hs').
  specialize (He' eq_refl). specialize (Ho' eq_refl). specialize (Hm eq_refl). destruct (Hs' eq_refl) as (st & ps & Is & Els & Ops).
  assert (Pic : picture_of (getr h1 (bw_rend w)) = ((map (fun a => OAgent (fst a)) (filter (fun a => N.eqb (fst a) i) (bw_agents w)) ++ map (fun l => OLane (l_id l)) (bw_lanes w) ++
              map (fun a => OAgent (fst a)) (filter (fun a => negb (N.eqb (fst a) i)) (bw_agents w)))%list, None)).
  { unfold picture_of. cbv zeta. rewrite Ee, Em, Eo, (Other "LINES"), (Other "POINTS"), (Other "POLYGONS") by discriminate.
    rewrite (draw_prims_agents _ _ _ He'), (draw_prims_agents _ _ _ Ho'), (draw_prims_lanes _ _ Hm). cbn [draw_prims draw_points andthen app].
    now rewrite !app_nil_r. }
  assert (Cen : centre_of (getr h1 (bw_rend w)) = Some st) by (unfold centre_of; rewrite Es, Els; cbn [rev app]; now rewrite Ops).
  rewrite Pic, Cen. eexists _, _. split; [reflexivity|]. split; [split; [reflexivity|exists st; auto]|].
  unfold clear. rewrite putr_len. split; [|auto]. unfold live in L. rewrite getr_put, Nat.eqb_refl by lia. split; reflexivity.
Qed.
(* any number of pictures: each shows its own world, nothing of the earlier ones *)
Fixpoint mp_many (h : heap) (l : list (bworld * list N)) : heap * list (mpicture * option bexn) :=
  match l with
  | [] => (h, [])
  | (w, evals) :: r =>
      let '(h1, p, x) := mp_draw h w (Some evals) in
      let '(h2, ps) := mp_many h1 r in (h2, (p, x) :: ps)
  end.
Theorem C107_every_picture_shows_its_world h l a : a < length h -> clean (getr h a) ->
  (forall w evals, In (w, evals) l -> bw_rend w = a /\ exists i r, evals = i :: r /\ In i (map fst (bw_agents w))) ->
  Forall2 (fun x y => exists i r, snd x = i :: r /\ shows (fst x) i (fst y) /\ snd y = None) l (snd (mp_many h l)) /\
  clean (getr (fst (mp_many h l)) a).
Proof.
  revert h. induction l as [|[w evals] l IH]; intros h L C H; [cbn [mp_many fst snd]; split; [constructor|exact C]|].
  cbn [mp_many]. destruct (H w evals (or_introl eq_refl)) as (Ea & i & r & -> & I).
  destruct (mp_draw_ok h w i r) as (h1 & p & E & S & C1 & L1); [unfold live; lia|now rewrite Ea|auto|]. rewrite E.
  destruct (IH h1) as (F & C2); [lia|now rewrite <- Ea|intros w' ev' I'; apply H; now right|].
  destruct (mp_many h1 l) as [h2 ps]. cbn [fst snd] in *. split; auto. constructor; auto. cbn [fst snd]. eauto.
Qed.

(* --- examples --- *)
Definition toy_agents : list (N * (Q * Q)) := [(3%N, (1, 2)%Q); (7%N, (4, 5)%Q); (12%N, (0, 9)%Q)].
Definition toy_lanes : list lane := [mkLane 0 false; mkLane 1 true].
Definition names (s : sys) (k : nat) : list nat :=
  match nth_error (s_worlds s) k with
  | Some w => map (fun n => length (prims (s_heap s) w n)) ["MAP_LINE"; "EGO_AGENT"; "OTHER_AGENT"; "EGO_AGENT_STATE"]
  | None => []
  end.
Definition toy_prog : list op :=
  [NewWorld toy_agents toy_lanes; ObserveParametric 0 7%N toy_agents; DrawBuffered 1 (Some [7%N]); DrawBuffered 0 (Some [3%N]); DrawBuffered 0 (Some [3%N])].
Example C107_nonvacuous : wf (exec_all init_sys toy_prog) /\
  names (exec_all init_sys toy_prog) 0 = [4; 2; 4; 2] /\ names (exec_all init_sys toy_prog) 1 = [2; 1; 2; 1] /\
  children (getr (s_heap (exec_all init_sys toy_prog)) 0) "7" = Some 1 /\ id_name 120 = "120".
Proof. split; [apply (exec_all_wf toy_prog), wf_init|]. vm_compute. auto. Qed.
Example C107_nonvacuous_picture :
  s_pics (exec_all init_sys [NewWorld toy_agents toy_lanes; DrawMP 0 (Some [7%N]); DrawMP 0 (Some [3%N])]) =
  [(mkMP [OAgent 7; OLane 0; OLane 1; OAgent 3; OAgent 12] (Some (4, 5)%Q), None);
   (mkMP [OAgent 3; OLane 0; OLane 1; OAgent 7; OAgent 12] (Some (1, 2)%Q), None)].
Proof. vm_compute. reflexivity. Qed.
(* drawing a copy of a world leaves the primitives of the original alone: false *)
Theorem C107_copies_are_separate_refuted :
  names (exec_all init_sys [NewWorld toy_agents toy_lanes; Clone 0]) 0 = [0; 0; 0; 0] /\
  names (exec_all init_sys [NewWorld toy_agents toy_lanes; Clone 0; DrawBuffered 1 (Some [3%N])]) 0 = [2; 1; 2; 1].
Proof. vm_compute. auto. Qed.
(* a drawing that fails leaves no trace: false, the next picture has the lanes twice *)
Theorem C107_failed_drawing_leaves_no_trace_refuted :
  map (fun x => m_objs (fst x)) (s_pics (exec_all init_sys [NewWorld toy_agents toy_lanes; DrawMP 0 (Some [99%N]); DrawMP 0 (Some [3%N])])) =
  [[]; [OAgent 3; OLane 0; OLane 1; OLane 0; OLane 1; OAgent 7; OAgent 12]].
Proof. vm_compute. reflexivity. Qed.
(* points can be added: false, this and every later picture fails *)
Theorem C107_points_can_be_drawn_refuted :
  map snd (s_pics (exec_all init_sys [NewWorld toy_agents toy_lanes;
    AddUser 0 "POINTS" (set_attr "stroke_color" EgoStroke (new_prim (OUser 1))); DrawMP 0 (Some [3%N]); DrawMP 0 (Some [3%N])])) =
  [Some BNameError; Some BNameError].
Proof. vm_compute. reflexivity. Qed.

Print Assumptions C107_draw.
Print Assumptions C107_primitives_pile_up.
Print Assumptions C107_observed_world_has_its_own_renderer.
Print Assumptions C107_other_renderers_are_untouched.
Print Assumptions C107_clones_share.
Print Assumptions C107_every_picture_shows_its_world.
Print Assumptions C107_copies_are_separate_refuted.
Print Assumptions C107_failed_drawing_leaves_no_trace_refuted.
Print Assumptions C107_points_can_be_drawn_refuted.
