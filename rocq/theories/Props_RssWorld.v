(** C113: the RSS world of an observed world: which route is taken for the ego, which agents enter, with which data. *)
From Coq Require Import Reals List Bool Arith NArith ZArith Lra Lia.
From Verif Require Import Base_Real Base_Geom Model_Map Model_Angle Model_Line Model_RSS Model_RssWorld.
Import ListNotations.
Local Open Scope R_scope.

(* ------------------------------------------------------------------------- the first greatest element *)
Lemma max_element_spec : forall (A : Type) (l : list (A * R)) b, exists pre post,
  b :: l = pre ++ max_element b l :: post
  /\ (forall y, In y (b :: l) -> snd y <= snd (max_element b l))
  /\ (forall y, In y pre -> snd y < snd (max_element b l)).
Proof.
  intros A. induction l as [|x r IH]; intros b; cbn [max_element].
  - exists [], []. split; [reflexivity|]. split; [|intros y []]. intros y [<-|[]]. lra.
  - destruct (Rltb_spec (snd b) (snd x)) as [L|L].
    + destruct (IH x) as (pre & post & E & M & F). exists (b :: pre), post.
      split; [rewrite E; reflexivity|].
      assert (B : snd b < snd (max_element x r)) by (pose proof (M x (or_introl eq_refl)); lra).
      split.
      * intros y [<-|I]; [lra|]. apply M, I.
      * intros y [<-|I]; [exact B|]. apply F, I.
    + destruct (IH b) as (pre & post & E & M & F). destruct pre as [|c pre]; cbn in E.
      * injection E as E1 E2. exists [], (x :: r). rewrite <- E1. split; [reflexivity|].
        split; [|intros y []]. intros y [<-|[<-|I]]; [lra|lra|]. rewrite E1. apply M. now right.
      * injection E as E1 E2. subst c. exists (b :: x :: pre), post. split; [cbn [app]; do 2 f_equal; exact E2|].
        assert (B : snd b < snd (max_element b r)) by (apply F; now left).
        split.
        -- intros y [<-|[<-|I]]; [lra|lra|]. apply M. right. exact I.
        -- intros y [<-|[<-|I]]; [lra|lra|]. apply F. now right.
Qed.
Lemma app_split_right : forall (A : Type) (g pre p post : list A) x, pre ++ x :: post = g ++ p -> ~ In x g ->
  exists pre', pre = g ++ pre' /\ p = pre' ++ x :: post.
Proof.
  intros A. induction g as [|a g IH]; intros pre p post x E N; cbn in E.
  - exists pre. split; [reflexivity|]. now symmetry.
  - destruct pre as [|b pre]; cbn in E.
    + injection E as <- _. elim N. now left.
    + injection E as <- E. destruct (IH pre p post x E) as (pre' & -> & ->); [intros I; apply N; now right|].
      now exists pre'.
Qed.
Lemma filter_split : forall (A B : Type) (f : A -> bool) (h : A -> B) l pre x post, map h (filter f l) = pre ++ x :: post ->
  exists l1 p l2, l = l1 ++ p :: l2 /\ f p = true /\ x = h p /\ pre = map h (filter f l1).
Proof.
  intros A B f h. induction l as [|a l IH]; intros pre x post E; cbn in E.
  - destruct pre; discriminate.
  - destruct (f a) eqn:F.
    + cbn in E. destruct pre as [|b pre]; cbn in E.
      * injection E as <- _. now exists [], a, l.
      * injection E as <- E. destruct (IH _ _ _ E) as (l1 & p & l2 & -> & P & X & Q).
        exists (a :: l1), p, l2. repeat split; auto. cbn. rewrite F. cbn. now rewrite Q.
    + destruct (IH _ _ _ E) as (l1 & p & l2 & -> & P & X & Q).
      exists (a :: l1), p, l2. repeat split; auto. cbn. now rewrite F.
Qed.

Section Route.
  Context {Para Start Geo Route MBox WM Ref : Type}.
  Variable mk_heading : R -> R.
  Variable ref : Ref.
  Variable matching : enu_position Ref -> MBox.
  Variable centers : MBox -> list (mposition Para).
  Variable in_direction : Para -> R -> bool.
  Variable project : Para -> R -> option Para.
  Variable routing_point : Para -> R -> Start.
  Variable to_geo : pt -> Geo.
  Variable plan : Start -> Geo -> Route.
  Variable predict : Start -> R -> list Route.
  Variable has_segments : Route -> bool.

  Notation rstart := (route_start Para Start in_direction project routing_point).
  Notation step := (route_step Para Start Geo Route in_direction project routing_point to_geo plan predict has_segments).
  Notation gen_route := (generate_route Para Start Geo Route MBox Ref centers in_direction project routing_point to_geo plan predict has_segments).
  (** Specification: the route planned from a matched position to the goal, whether there is one, and the guessed ones. *)
  Definition planned (goal : pt) (h : R) (p : mposition Para) : Route := plan (rstart h p) (to_geo goal).
  Definition reach (goal : pt) (h : R) (p : mposition Para) : bool := has_segments (planned goal h p).
  Definition guessed (h range : R) (p : mposition Para) : list Route := predict (rstart h p) range.
  (** The positions before the first one with a planned route. *)
  Fixpoint before_first (f : mposition Para -> bool) (l : list (mposition Para)) : list (mposition Para) :=
    match l with [] => [] | p :: r => if f p then [] else p :: before_first f r end.

  Lemma fold_routes goal h range : forall ps found acc,
    fold_left (step goal h range) ps (found, acc)
    = (found || existsb (reach goal h) ps,
       acc ++ (if found then [] else map (fun g => (g, 0)) (flat_map (guessed h range) (before_first (reach goal h) ps)))
           ++ map (fun p => (planned goal h p, mp_prob Para p)) (filter (reach goal h) ps)).
  Proof.
    induction ps as [|p ps IH]; intros found acc; cbn [fold_left existsb filter before_first].
    - rewrite orb_false_r. cbn. destruct found; now rewrite !app_nil_r.
    - unfold route_step at 2. fold (planned goal h p). fold (reach goal h p).
      unfold reach in *. destruct (has_segments (planned goal h p)) eqn:E.
      + rewrite IH. cbn [map flat_map]. rewrite orb_true_r, <- !app_assoc. cbn. now destruct found.
      + destruct found.
        * rewrite IH. reflexivity.
        * rewrite IH. cbn [orb flat_map]. rewrite map_app, <- !app_assoc. reflexivity.
  Qed.

  (** The result says whether the goal can be reached from some matched position of the ego's center. *)
  Theorem C113_route_flag : forall goal m range old,
    fst (gen_route goal m range old) = true
    <-> exists p, In p (centers (mo_box MBox Ref m)) /\ has_segments (planned goal (en_heading Ref (mo_pos MBox Ref m)) p) = true.
  Proof.
    intros goal m range old. unfold generate_route. rewrite fold_routes. cbn [fst orb]. apply existsb_exists.
  Qed.

  (** When the goal can be reached from a position of positive probability, or from the first position, the route taken is the
      planned route of the first most probable position among those from which the goal can be reached. *)
  Theorem C113_best_planned_route : forall goal m range old ps h,
    ps = centers (mo_box MBox Ref m) -> h = en_heading Ref (mo_pos MBox Ref m) ->
    ((exists p, In p ps /\ reach goal h p = true /\ 0 < mp_prob Para p) \/ (exists p r, ps = p :: r /\ reach goal h p = true)) ->
    exists pre p post, ps = pre ++ p :: post /\ reach goal h p = true
      /\ (forall q, In q ps -> reach goal h q = true -> mp_prob Para q <= mp_prob Para p)
      /\ (forall q, In q pre -> reach goal h q = true -> mp_prob Para q < mp_prob Para p)
      /\ gen_route goal m range old = (true, planned goal h p).
  Proof.
    intros goal m range old ps h -> -> Hyp. set (h := en_heading _ _) in *. set (ps := centers _) in *.
    unfold generate_route. fold h ps. rewrite fold_routes. cbn [orb app].
    set (G := map (fun g => (g, 0)) (flat_map (guessed h range) (before_first (reach goal h) ps))).
    set (P := map (fun p => (planned goal h p, mp_prob Para p)) (filter (reach goal h) ps)).
    assert (EX : exists p, In p ps /\ reach goal h p = true).
    { destruct Hyp as [(p & I & Q & _)|(p & r & E & Q)]; exists p; split; auto. rewrite E. now left. }
    assert (F : existsb (reach goal h) ps = true) by (apply existsb_exists; exact EX).
    rewrite F.
    destruct EX as (p0 & I0 & R0).
    assert (IP : forall p, In p ps -> reach goal h p = true -> In (planned goal h p, mp_prob Para p) P).
    { intros p I Q. unfold P. apply in_map_iff. exists p. split; [reflexivity|]. apply filter_In. now split. }
    destruct (G ++ P) as [|b l] eqn:EL.
    { specialize (IP _ I0 R0). destruct (app_eq_nil _ _ EL) as [_ Z]. rewrite Z in IP. destruct IP. }
    destruct (max_element_spec Route l b) as (pre & post & E & M & Fst).
    set (x := max_element b l) in *.
    assert (NG : ~ In x G).
    { intros I. destruct Hyp as [(p & Ip & Q & Pos)|(p & r & Er & Q)].
      - apply in_map_iff in I as (g & Ex & _). specialize (M (planned goal h p, mp_prob Para p)).
        rewrite <- Ex in M. cbn [snd] in M. assert (mp_prob Para p <= 0); [|lra].
        apply M. rewrite <- EL. apply in_or_app. right. now apply IP.
      - unfold G in I. rewrite Er in I. cbn [before_first] in I. rewrite Q in I. destruct I. }
    rewrite E in EL. symmetry in EL.
    destruct (app_split_right _ G pre P post x EL NG) as (pre' & Epre & EP).
    destruct (filter_split _ _ _ _ _ _ _ _ EP) as (l1 & p & l2 & Eps & Q & Ex & Epre').
    exists l1, p, l2. split; [exact Eps|]. split; [exact Q|].
    assert (Sx : snd x = mp_prob Para p) by now rewrite Ex.
    split; [|split].
    - intros q I Rq. rewrite <- Sx. apply (M (planned goal h q, mp_prob Para q)).
      rewrite E. rewrite EL. apply in_or_app. right. now apply IP.
    - intros q I Rq. rewrite <- Sx. apply (Fst (planned goal h q, mp_prob Para q)).
      rewrite Epre. apply in_or_app. right. rewrite Epre'. apply in_map_iff. exists q. split; [reflexivity|]. apply filter_In. now split.
    - now rewrite Ex.
  Qed.

  Lemma max_element_first : forall (l : list (Route * R)) b, (forall y, In y l -> snd y <= snd b) -> max_element b l = b.
  Proof.
    induction l as [|x r IH]; intros b H; cbn [max_element]; [reflexivity|].
    destruct (Rltb_spec (snd b) (snd x)) as [L|L].
    - specialize (H x (or_introl eq_refl)). lra.
    - apply IH. intros y I. apply H. now right.
  Qed.
  (** When the goal can be reached from no position, or only from positions of probability zero, the first route guessed (at the
      positions before the first one that reaches the goal) is taken. *)
  Theorem C113_guessed_route : forall goal m range old ps h pre p rest g gs,
    ps = centers (mo_box MBox Ref m) -> h = en_heading Ref (mo_pos MBox Ref m) ->
    ps = pre ++ p :: rest ->
    (forall q, In q (pre ++ [p]) -> reach goal h q = false) ->
    (forall q, In q pre -> guessed h range q = []) -> guessed h range p = g :: gs ->
    (forall q, In q ps -> reach goal h q = true -> mp_prob Para q <= 0) ->
    snd (gen_route goal m range old) = g.
  Proof.
    intros goal m range old ps h pre p rest g gs -> -> Eps NR NG GP ZP. set (h := en_heading _ _) in *.
    unfold generate_route. fold h. rewrite fold_routes. cbn [orb app].
    rewrite Eps in *. clear Eps.
    assert (EB : exists t, flat_map (guessed h range) (before_first (reach goal h) (pre ++ p :: rest)) = g :: t).
    { clear ZP. induction pre as [|a pre IH]; cbn.
      - assert (E : reach goal h p = false) by (apply NR; now left). rewrite E. cbn. rewrite GP. cbn. eauto.
      - assert (E : reach goal h a = false) by (apply NR; now left). rewrite E. cbn.
        rewrite (NG a (or_introl eq_refl)). cbn. apply IH.
        + intros q I. apply NR. now right.
        + intros q I. apply NG. now right. }
    destruct EB as (t & ->). cbn [map app snd]. rewrite max_element_first; [reflexivity|].
    intros y I. cbn [snd]. apply in_app_or in I as [I|I].
    - apply in_map_iff in I as (z & <- & _). cbn. lra.
    - apply in_map_iff in I as (q & <- & I). apply filter_In in I as [I Q]. cbn. now apply ZP.
  Qed.

  (** With no planned and no guessed route the output is left as it was. *)
  Theorem C113_no_route : forall goal m range old,
    (forall p, In p (centers (mo_box MBox Ref m)) ->
       reach goal (en_heading Ref (mo_pos MBox Ref m)) p = false /\ guessed (en_heading Ref (mo_pos MBox Ref m)) range p = []) ->
    gen_route goal m range old = (false, old).
  Proof.
    intros goal m range old H. unfold generate_route. rewrite fold_routes. cbn [orb app].
    set (h := en_heading _ _) in *. set (ps := centers _) in *.
    assert (E : existsb (reach goal h) ps = false /\ flat_map (guessed h range) (before_first (reach goal h) ps) = [] /\ filter (reach goal h) ps = []).
    { clearbody ps. induction ps as [|p r IH]; cbn; [auto|].
      destruct (H p (or_introl eq_refl)) as [E1 E2]. destruct IH as (F1 & F2 & F3); [intros q I; apply H; now right|].
      rewrite E1. cbn. rewrite E2, F1, F2, F3. auto. }
    destruct E as (-> & -> & ->). reflexivity.
  Qed.

  (** The search starts on a lane of the ego's direction whenever the position lies on one or can be projected onto one. *)
  Theorem C113_start_in_direction : forall h p,
    (forall a b, project a h = Some b -> in_direction b h = true) ->
    in_direction (mp_para Para p) h = true \/ project (mp_para Para p) h <> None ->
    exists q, rstart h p = routing_point q h /\ in_direction q h = true.
  Proof.
    intros h p C H. unfold route_start. destruct (in_direction (mp_para Para p) h) eqn:E; [eauto|].
    destruct H as [H|H]; [discriminate|]. destruct (project (mp_para Para p) h) eqn:Ep; [|easy]. eauto.
  Qed.

  (* ----------------------------------------------------------------------- the world *)
  Variable no_route : Route.
  Variable moved : R -> R -> R -> option (R * R).
  Variable stopped : R -> R -> option R.
  Variable avel : list (R * R) -> option R.
  Variable build : Z -> rss_dyn -> list (scene_call Route MBox Ref) -> WM.
  Variable valid : WM -> bool.
  Variables (dyn_ego dyn_others : rss_dyn) (scaling range : R).

  Notation gen_world := (generate_world Para Start Geo Route MBox WM Ref mk_heading ref matching centers in_direction project
    routing_point to_geo plan predict has_segments no_route moved stopped avel build valid dyn_ego dyn_others scaling range).
  Notation mobj := (generate_match_object MBox Ref mk_heading ref matching).

  (** Specification: [a] is close enough to the ego [e] to matter: its distance is below the scaled sum of both stopping distances. *)
  Definition close (e a : ragent) : Prop :=
    dist (a_x (ag_state e), a_y (ag_state e)) (a_x (ag_state a), a_y (ag_state a))
    < (max_stopping moved stopped (a_vel (ag_state e)) dyn_ego + max_stopping moved stopped (a_vel (ag_state a)) dyn_others) * scaling.
  Definition close_b (e a : ragent) : bool :=
    Rltb (dist (a_x (ag_state e), a_y (ag_state e)) (a_x (ag_state a), a_y (ag_state a)))
      ((max_stopping moved stopped (a_vel (ag_state e)) dyn_ego + max_stopping moved stopped (a_vel (ag_state a)) dyn_others) * scaling).
  (** Specification: the data of one agent handed to the library. *)
  Definition data_of (yaw : R) (k : N) (is_ego : bool) (a : ragent) (d : rss_dyn) (o : object_data MBox Ref) : Prop :=
    od_id _ _ o = k /\ od_ego _ _ o = is_ego /\ od_speed _ _ o = a_vel (ag_state a) /\ od_yaw _ _ o = yaw /\ od_dyn _ _ o = d
    /\ avel (ag_hist a) = Some (od_av _ _ o)
    /\ let p := mo_pos _ _ (od_match _ _ o) in
       en_center _ p = (a_x (ag_state a), a_y (ag_state a), 0) /\ en_heading _ p = mk_heading (a_theta (ag_state a))
       /\ en_height _ p = 2 /\ en_length _ p = sh_front (ag_shape a) + sh_rear (ag_shape a) /\ en_width _ p = sh_left (ag_shape a) + sh_right (ag_shape a)
       /\ mo_box _ _ (od_match _ _ o) = matching p.

  Lemma collect_some : forall (l : list (N * ragent)) f cs,
    collect Route MBox Ref (map f l) = Some cs -> Forall2 (fun ka c => f ka = Some c) l cs.
  Proof.
    induction l as [|a l IH]; intros f cs H; cbn in H; [injection H as <-; constructor|].
    destruct (f a) as [c|] eqn:E; [|discriminate]. destruct (collect _ _ _ (map f l)) as [r|] eqn:Er; [|discriminate].
    injection H as <-. constructor; auto.
  Qed.
  Lemma relevant_filter : forall (agents : list (N * ragent)) e ego, NoDup (map fst agents) ->
    filter (fun ka => existsb (N.eqb (fst ka)) (relevant_agents moved stopped (brief agents) (a_x (ag_state e), a_y (ag_state e)) ego
       (max_stopping moved stopped (a_vel (ag_state e)) dyn_ego) dyn_others scaling)) agents
    = filter (fun ka => negb (N.eqb (fst ka) ego) && close_b e (snd ka)) agents.
  Proof.
    intros agents e ego ND. apply filter_ext_in. intros (k & a) I. cbn [fst snd].
    unfold relevant_agents, brief.
    match goal with |- ?b = ?c => destruct c eqn:C; destruct b eqn:B; try reflexivity; exfalso end.
    - assert (T : existsb (N.eqb k) (map fst (filter (fun a0 => negb (fst a0 =? ego)%N &&
        Rltb (dist (a_x (ag_state e), a_y (ag_state e)) (fst (snd a0)))
        ((max_stopping moved stopped (a_vel (ag_state e)) dyn_ego + max_stopping moved stopped (snd (snd a0)) dyn_others) * scaling))
        (map (fun ka => (fst ka, (a_x (ag_state (snd ka)), a_y (ag_state (snd ka)), a_vel (ag_state (snd ka))))) agents))) = true).
      { apply existsb_exists. exists k. split; [|apply N.eqb_refl]. apply in_map_iff.
        exists (k, ((a_x (ag_state a), a_y (ag_state a)), a_vel (ag_state a))). split; [reflexivity|].
        apply filter_In. split; [|exact C]. apply in_map_iff. now exists (k, a). }
      rewrite T in B. discriminate.
    - apply existsb_exists in B as (k' & Ik & Ek). apply N.eqb_eq in Ek. subst k'.
      apply in_map_iff in Ik as ((k' & q) & Ek & Iq). cbn in Ek. subst k'. apply filter_In in Iq as [Iq Cq].
      apply in_map_iff in Iq as ((k' & a') & Eq & Ia). cbn in Eq. injection Eq as -> <-.
      assert (a' = a).
      { clear - ND I Ia. induction agents as [|(k0 & a0) r IH]; [destruct I|]. cbn in ND. inversion_clear ND.
        destruct I as [I|I], Ia as [Ia|Ia].
        - congruence.
        - injection I as -> ->. elim H. apply in_map_iff. now exists (k, a').
        - injection Ia as -> ->. elim H. apply in_map_iff. now exists (k, a).
        - auto. }
      subst a'. cbn [fst snd] in Cq. unfold close_b in C. rewrite Cq in C. discriminate.
  Qed.

  Lemma gen_world_inv : forall agents ego corr r, NoDup (map fst agents) -> gen_world agents ego corr = Some r ->
    exists e goal av calls, m_find ego agents = Some e /\ ag_goal e = Some goal /\ corr = true /\ avel (ag_hist e) = Some av
      /\ let od := mkOD MBox Ref ego true (mobj (ag_state e) (ag_shape e)) (a_vel (ag_state e)) av (mk_heading (a_theta (ag_state e))) dyn_ego in
         let route := snd (gen_route goal (mobj (ag_state e) (ag_shape e)) range no_route) in
         collect _ _ _ (map (call_for Route MBox Ref mk_heading ref matching avel dyn_others od route)
            (filter (fun ka => negb (N.eqb (fst ka) ego) && close_b e (snd ka)) agents)) = Some calls
      /\ r = (valid (build (Int_part (a_time (ag_state e) + 1)) dyn_ego calls), build (Int_part (a_time (ag_state e) + 1)) dyn_ego calls).
  Proof.
    intros agents ego corr r ND H. unfold generate_world in H.
    destruct (m_find ego agents) as [e|] eqn:Ef; [|discriminate].
    destruct (ag_goal e) as [goal|] eqn:Eg; [|discriminate].
    destruct corr; [|discriminate]. cbn [negb] in H.
    destruct (gen_route goal (mobj (ag_state e) (ag_shape e)) range no_route) as [fl route] eqn:Er.
    unfold create_world in H. rewrite Ef in H.
    destruct (avel (ag_hist e)) as [av|] eqn:Ea; [|discriminate].
    unfold convert_state in H. cbn [r_center r_stop r_time r_speed r_heading fst] in H.
    rewrite relevant_filter in H by assumption.
    destruct (collect _ _ _ _) as [calls|] eqn:Ec; [|discriminate]. injection H as <-.
    exists e, goal, av, calls. rewrite Er. cbn [snd]. auto 10.
  Qed.

  (** The library is called once for every agent other than the ego that is close enough, in the order of the agents' ids, each
      time with the data of the ego (its own dynamics) and of that agent (the dynamics of others) and the ego's route; the ego's
      yaw is the normalised heading, that of the others is the raw orientation; the time is the whole part of the ego's plus one. *)
  Theorem C113_scenes : forall agents ego corr ok w, NoDup (map fst agents) -> gen_world agents ego corr = Some (ok, w) ->
    exists e goal calls, m_find ego agents = Some e /\ ag_goal e = Some goal
      /\ w = build (Int_part (a_time (ag_state e) + 1)) dyn_ego calls /\ ok = valid w
      /\ map (fun c => od_id _ _ (sc_other _ _ _ c)) calls
         = map fst (filter (fun ka => negb (N.eqb (fst ka) ego) && close_b e (snd ka)) agents)
      /\ forall c, In c calls -> exists a, In (od_id _ _ (sc_other _ _ _ c), a) agents
           /\ od_id _ _ (sc_other _ _ _ c) <> ego /\ close e a
           /\ data_of (a_theta (ag_state a)) (od_id _ _ (sc_other _ _ _ c)) false a dyn_others (sc_other _ _ _ c)
           /\ data_of (mk_heading (a_theta (ag_state e))) ego true e dyn_ego (sc_ego _ _ _ c)
           /\ sc_route _ _ _ c = snd (gen_route goal (mobj (ag_state e) (ag_shape e)) range no_route).
  Proof.
    intros agents ego corr ok w ND H.
    destruct (gen_world_inv _ _ _ _ ND H) as (e & goal & av & calls & Ef & Eg & -> & Ea & Hc). cbv zeta in Hc. destruct Hc as [Ec Er].
    apply collect_some in Ec. injection Er as -> ->.
    exists e, goal, calls. split; [exact Ef|]. split; [exact Eg|]. split; [reflexivity|]. split; [reflexivity|]. split.
    - clear - Ec. induction Ec as [|(k & a) c l cs E _ IH]; [reflexivity|]. cbn [map]. rewrite IH. f_equal.
      unfold call_for in E. destruct (avel (ag_hist (snd (k, a)))); [|discriminate]. injection E as <-. reflexivity.
    - intros c I.
      assert (J : exists ka, In ka (filter (fun ka => negb (N.eqb (fst ka) ego) && close_b e (snd ka)) agents) /\
        call_for Route MBox Ref mk_heading ref matching avel dyn_others
          (mkOD MBox Ref ego true (mobj (ag_state e) (ag_shape e)) (a_vel (ag_state e)) av (mk_heading (a_theta (ag_state e))) dyn_ego)
          (snd (gen_route goal (mobj (ag_state e) (ag_shape e)) range no_route)) ka = Some c).
      { clear - Ec I. induction Ec as [|x y l cs E _ IH]; [destruct I|]. destruct I as [<-|I].
        - exists x. split; [now left|exact E].
        - destruct (IH I) as (ka & J & K). exists ka. split; [now right|exact K]. }
      destruct J as ((k & a) & J & K). apply filter_In in J as [J L]. apply andb_true_iff in L as [L1 L2]. cbn [fst snd] in L1, L2.
      unfold call_for in K. cbn [fst snd] in K. destruct (avel (ag_hist a)) as [av'|] eqn:Ea'; [|discriminate]. injection K as <-.
      exists a. cbn [sc_other sc_ego sc_route od_id]. split; [exact J|].
      split; [intros ->; rewrite N.eqb_refl in L1; discriminate|].
      split; [unfold close; unfold close_b in L2; destruct (Rltb_spec (dist (a_x (ag_state e), a_y (ag_state e)) (a_x (ag_state a), a_y (ag_state a)))
         ((max_stopping moved stopped (a_vel (ag_state e)) dyn_ego + max_stopping moved stopped (a_vel (ag_state a)) dyn_others) * scaling)); [assumption|discriminate]|].
      split; [|split]; [| |reflexivity]; unfold data_of, generate_match_object; cbn; rewrite ?Ea, ?Ea'; repeat split.
  Qed.

  (** An agent that is close enough is never left out, and no agent appears twice. *)
  Theorem C113_no_close_agent_is_missed : forall agents ego corr ok w e k a, NoDup (map fst agents) ->
    gen_world agents ego corr = Some (ok, w) -> m_find ego agents = Some e -> In (k, a) agents -> k <> ego -> close e a ->
    exists calls, w = build (Int_part (a_time (ag_state e) + 1)) dyn_ego calls
      /\ NoDup (map (fun c => od_id _ _ (sc_other _ _ _ c)) calls) /\ In k (map (fun c => od_id _ _ (sc_other _ _ _ c)) calls).
  Proof.
    intros agents ego corr ok w e k a ND H Ef I NE C.
    destruct (C113_scenes _ _ _ _ _ ND H) as (e' & goal & calls & Ef' & _ & -> & _ & Em & _).
    rewrite Ef in Ef'. injection Ef' as <-. exists calls. split; [reflexivity|]. rewrite Em. split.
    - clear - ND. induction agents as [|x r IH]; [constructor|]. cbn in ND. inversion_clear ND. cbn [filter].
      destruct (_ && _); [|auto]. cbn. constructor; [|auto]. intros J. apply H. apply in_map_iff in J as (y & E & J).
      apply filter_In in J as [J _]. apply in_map_iff. now exists y.
    - apply in_map_iff. exists (k, a). split; [reflexivity|]. apply filter_In. split; [exact I|]. cbn.
      apply andb_true_iff. split; [apply negb_true_iff, N.eqb_neq, NE|]. unfold close_b.
      destruct (Rltb_spec (dist (a_x (ag_state e), a_y (ag_state e)) (a_x (ag_state a), a_y (ag_state a)))
         ((max_stopping moved stopped (a_vel (ag_state e)) dyn_ego + max_stopping moved stopped (a_vel (ag_state a)) dyn_others) * scaling)); [reflexivity|].
      unfold close in C. lra.
  Qed.

  (** Agents that are too far away do not matter: two sets of agents with the same ego and the same close agents give the same
      world, whatever the others do. *)
  Theorem C113_far_agents_do_not_matter : forall ags ags' ego corr e, NoDup (map fst ags) -> NoDup (map fst ags') ->
    m_find ego ags = Some e -> m_find ego ags' = Some e ->
    filter (fun ka => close_b e (snd ka)) ags = filter (fun ka => close_b e (snd ka)) ags' ->
    gen_world ags ego corr = gen_world ags' ego corr.
  Proof.
    intros ags ags' ego corr e ND ND' E E' F. unfold generate_world, create_world. rewrite E, E'.
    destruct (ag_goal e) as [goal|]; [|reflexivity]. destruct corr; [|reflexivity]. cbn [negb].
    destruct (gen_route goal (mobj (ag_state e) (ag_shape e)) range no_route) as [fl route].
    destruct (avel (ag_hist e)); [|reflexivity]. unfold convert_state. cbn [r_center r_stop r_time r_speed r_heading fst].
    rewrite !relevant_filter by assumption.
    assert (FF : forall l, filter (fun ka : N * ragent => negb (N.eqb (fst ka) ego) && close_b e (snd ka)) l
      = filter (fun ka => negb (N.eqb (fst ka) ego)) (filter (fun ka => close_b e (snd ka)) l)).
    { clear. induction l as [|x l IH]; [reflexivity|]. cbn [filter]. destruct (close_b e (snd x)); cbn [filter];
      destruct (negb (fst x =? ego)%N); cbn [andb]; rewrite IH; reflexivity. }
    now rewrite !FF, F.
  Qed.
End Route.

(** The library's time of two worlds less than a second apart can be the same: only whole seconds count. *)
Theorem C113_time_resolution : forall (n : Z) t, IZR n <= t < IZR n + 1 -> time_index t = (n + 1)%Z.
Proof.
  intros n t [L U]. unfold time_index, Int_part.
  assert (E : (n + 2)%Z = up (t + 1)); [|rewrite <- E; lia].
  apply tech_up; rewrite plus_IZR; cbn; lra.
Qed.

(* ------------------------------------------------------------------------- concrete cases *)
(** Positions are numbered: the goal is reached from the positions 1 and 3; the planned route is the number itself, the empty
    route is 0, the guessed routes of n are [n + 10]. *)
Definition toy_plan (n : nat) (_ : pt) : nat := match n with 1 => 1 | 3 => 3 | _ => 0 end%nat.
Definition toy_route (ps : list (mposition nat)) : bool * nat :=
  generate_route nat nat pt nat (list (mposition nat)) unit (fun b => b) (fun _ _ => true) (fun _ _ => None) (fun n _ => n) (fun p => p)
    toy_plan (fun n _ => [n + 10]%nat) (fun n => negb (Nat.eqb n 0)) (5, 5) (mkMatch _ _ (mkEnu unit (0, 0, 0) 0 4 2 2 tt) ps) 100 0%nat.
Ltac rltb := repeat match goal with |- context [Rltb ?a ?b] => destruct (Rltb_spec a b); cbn [fst snd] in *; try (exfalso; lra) end.
Example route_nonvacuous : toy_route [mkPos nat (1/4) 2%nat; mkPos nat (1/4) 1%nat; mkPos nat (1/2) 3%nat] = (true, 3%nat)
  /\ toy_route [mkPos nat (1/4) 2%nat] = (false, 12%nat) /\ toy_route [] = (false, 0%nat).
Proof.
  split; [|split]; [| |reflexivity]; unfold toy_route, generate_route; cbn; rltb; reflexivity.
Qed.
(** Refuted expectation: "when the goal can be reached, the route taken leads to the goal": with probability zero for the only
    position that reaches it, a guessed route that was found before is taken, and the result still says that a route was found. *)
Theorem C113_route_found_means_planned_refuted :
  toy_route [mkPos nat 1 2%nat; mkPos nat 0 1%nat] = (true, 12%nat) /\ toy_route [mkPos nat 0 1%nat; mkPos nat 1 2%nat] = (true, 1%nat).
Proof. split; unfold toy_route, generate_route; cbn; rltb; reflexivity. Qed.

Definition toy_dyn : rss_dyn := mkDyn 1 1 (-1) (-1) 0.
Definition toy_agent (x : R) : ragent := mkAg (mkA (3/2) x 0 0 2) (mkSh 3 1 1 1) [] (Some (5, 5)).
Definition toy_world (ags : list (N * ragent)) : option (bool * (Z * list (N * R * R))) :=
  generate_world nat nat pt nat (list (mposition nat)) (Z * list (N * R * R)) unit (fun t => t) tt (fun _ => [mkPos nat 1 1%nat]) (fun b => b)
    (fun _ _ => true) (fun _ _ => None) (fun n _ => n) (fun p => p) toy_plan (fun n _ => []) (fun n => negb (Nat.eqb n 0)) 0%nat
    kin_moved kin_stopped (fun _ => Some 0)
    (fun t _ cs => (t, map (fun c => (od_id _ _ (sc_other _ _ _ c), fst (fst (en_center _ (mo_pos _ _ (od_match _ _ (sc_other _ _ _ c))))), en_length _ (mo_pos _ _ (od_match _ _ (sc_other _ _ _ c))))) cs))
    (fun _ => true) toy_dyn toy_dyn 1 100 ags 7 true.
(** The ego 7 at 0 with speed 2 stops within 2, like the others: an agent at 3 matters, one at 4 does not. *)
Example world_nonvacuous : toy_world [(1%N, toy_agent 3); (2%N, toy_agent 4); (7%N, toy_agent 0)] = Some (true, (2%Z, [(1%N, 3, 4)])).
Proof.
  assert (ST : max_stopping kin_moved kin_stopped 2 toy_dyn = 2).
  { unfold max_stopping, kin_moved, kin_stopped, toy_dyn. cbn [d_acc_lon d_acc_lat d_brake_min d_brake_max d_response].
    rewrite Rmax_left, Rmin_left by lra. rewrite (Rabs_right 2) by lra. rewrite (Rabs_right (2 + 1 * 0)) by lra. rltb. replace (2 * - -1) with 2 by lra. lra. }
  assert (DI : forall x, 0 <= x -> dist (0, 0) (x, 0) = x).
  { intros x P. unfold dist. cbn [fst snd]. replace ((0 - x) * (0 - x) + (0 - 0) * (0 - 0)) with (x * x) by ring. now apply sqrt_square. }
  unfold toy_world, generate_world, create_world, convert_state, relevant_agents.
  cbn [m_find N.eqb Pos.eqb toy_agent ag_goal ag_state ag_hist ag_shape negb brief map filter fst snd andb a_x a_y a_vel a_time a_theta
       r_center r_stop r_time r_speed r_heading].
  rewrite ST, !DI by lra. rltb.
  rewrite (C113_time_resolution 1) by lra.
  cbn. do 5 f_equal. replace (3 + 1) with 4 by lra. reflexivity.
Qed.
Print Assumptions C113_route_flag.
Print Assumptions C113_best_planned_route.
Print Assumptions C113_guessed_route.
Print Assumptions C113_scenes.
Print Assumptions C113_far_agents_do_not_matter.
Print Assumptions C113_time_resolution.
