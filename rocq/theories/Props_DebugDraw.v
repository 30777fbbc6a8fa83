(** C117. Debug drawings of a picture. *)
From Coq Require Import List Bool NArith ZArith QArith Reals Lia Lra.
From Coq Require Lqa.
From Verif Require Import Model_DebugDraw.
Import ListNotations.
Local Open Scope nat_scope.

(** ** Histories: every state of a polygon's history, fading: the k-th newest with 1 - 4/17 k, from the fifth newest on invisible. *)
Lemma history_nth {State} lh : forall (h : list State) i j s a, nth_error (history_from lh i h) j = Some (s, a) ->
  nth_error h j = Some s /\ a = history_alpha lh (i + j).
Proof.
  induction h as [|x h IH]; intros i j s a H; [destruct j; discriminate|]. destruct j as [|j].
  - cbn in H. injection H as <- <-. rewrite Nat.add_0_r. auto.
  - cbn in H. apply IH in H. destruct H as [H ->]. split; [exact H|]. f_equal. lia.
Qed.
Theorem C117_history : forall {State} alpha (h : list State),
  map fst (draw_history true alpha h) = h /\ draw_history false alpha h = [] /\
  forall idx s a, nth_error (draw_history true alpha h) idx = Some (s, a) ->
    nth_error h idx = Some s /\
    let k := length h - idx in
    (k <= 4 -> (a == 1 - (4 # 17) * inject_Z (Z.of_nat k))%Q) /\ (4 < k -> (a == 0)%Q).
Proof.
  intros State alpha h. split; [|split; [reflexivity|]].
  - unfold draw_history. generalize (length h) 0. induction h as [|x h IH]; intros lh i; [reflexivity|]. cbn. f_equal. apply IH.
  - intros idx s a H. unfold draw_history in H. apply history_nth in H. destruct H as [H ->]. split; [exact H|]. cbn [plus].
    cbv zeta. assert (B : idx < length h) by (apply nth_error_Some; congruence).
    unfold history_alpha. set (k := length h - idx).
    assert (E : (1 - (8 # 10) * inject_Z (Z.of_nat k) / (34 # 10) == 1 - (4 # 17) * inject_Z (Z.of_nat k))%Q) by field.
    assert (X : Qle_bool 0 (1 - (8 # 10) * inject_Z (Z.of_nat k) / (34 # 10)) = Nat.leb k 4).
    { apply eq_true_iff_eq. rewrite Qle_bool_iff, Nat.leb_le, E. unfold Qle, Qminus, Qplus, Qmult, Qopp, inject_Z. cbn [Qnum Qden]. lia. }
    cbv zeta. rewrite X. split; intros Hk.
    + rewrite (proj2 (Nat.leb_le k 4) Hk). exact E.
    + rewrite (proj2 (Nat.leb_gt k 4)) by exact Hk. reflexivity.
Qed.
Print Assumptions C117_history.

(** ** Goals: the shape of the first goal, found through the first elements of sequences, is all that is drawn. *)
Inductive first_goal {Shape} : goal Shape -> goal Shape -> Prop :=
| first_seq g r leaf : first_goal g leaf -> first_goal (GSequential (g :: r)) leaf
| first_poly s : first_goal (GPolygon s) (GPolygon s)
| first_lim s : first_goal (GLimits s) (GLimits s)
| first_fre s : first_goal (GFrenet s) (GFrenet s)
| first_oth : first_goal GOther GOther
| first_none : first_goal (GSequential []) (GSequential []).
Theorem C117_goal : forall {Shape} (g : goal Shape), exists leaf, first_goal g leaf /\
  match leaf with
  | GPolygon s | GLimits s | GFrenet s => draw_goal g = ([s], true)
  | GOther => draw_goal g = ([], true)
  | GSequential l => l = [] /\ draw_goal g = ([], false)
  end.
Proof.
  intros Shape. fix IH 1. intros [s|s|s|[|g r]|].
  - exists (GPolygon s). split; [constructor|reflexivity].
  - exists (GLimits s). split; [constructor|reflexivity].
  - exists (GFrenet s). split; [constructor|reflexivity].
  - exists (GSequential []). split; [constructor|split; reflexivity].
  - destruct (IH g) as (leaf & F & D). exists leaf. split; [constructor; exact F|]. destruct leaf; exact D.
  - exists GOther. split; [constructor|reflexivity].
Qed.
Print Assumptions C117_goal.

(** ** Results: one text for each, downwards from 0.9. *)
Theorem C117_results : forall {E} (rs : list E), length (draw_eval_results rs) = length rs /\
  forall i r y, nth_error (draw_eval_results rs) i = Some (r, y) ->
    nth_error rs i = Some r /\ (y == (9 # 10) - (3 # 100) * inject_Z (Z.of_nat i))%Q.
Proof.
  intros E rs. unfold draw_eval_results. split.
  - generalize (9 # 10)%Q. induction rs as [|r rs IH]; intros y; cbn; [reflexivity|rewrite IH; reflexivity].
  - generalize (9 # 10)%Q. induction rs as [|x rs IH]; intros y0 i r y H; [destruct i; discriminate|]. destruct i as [|i].
    + cbn in H. injection H as <- <-. split; [reflexivity|]. change (inject_Z (Z.of_nat 0)) with 0%Q. ring.
    + cbn [eval_texts nth_error] in H. apply IH in H. destruct H as [H E']. split; [exact H|]. rewrite E'.
      rewrite Nat2Z.inj_succ, <- Z.add_1_r, inject_Z_plus. change (inject_Z 1) with 1%Q. ring.
Qed.
Print Assumptions C117_results.

(** ** Agents: the polygon always, its id and arrow as the viewer is set up; nothing but polygons. *)
Theorem C117_agent : forall poly ids arrow id hatch b,
  (poly = true -> snd (draw_agent poly ids arrow id hatch b) = true /\
     (forall c, In c (fst (draw_agent poly ids arrow id hatch b)) <-> c = APolygon hatch \/ (c = AText id /\ ids = true) \/ (c = AArrow /\ arrow = true))) /\
  (poly = false -> draw_agent poly ids arrow id hatch b = ([], false)).
Proof.
  intros poly ids arrow id hatch b. split; intros ->; [|reflexivity]. split; [reflexivity|]. intros c. unfold draw_agent, done. cbn [fst].
  destruct ids, arrow; cbn; intuition (subst; auto; try discriminate).
Qed.
Print Assumptions C117_agent.
(** The argument draw_agent_id has no effect, so that drawTrueWorld shows ids although it asks for none. *)
Theorem C117_draw_agent_id_refuted :
  (forall poly ids arrow id hatch b b', draw_agent poly ids arrow id hatch b = draw_agent poly ids arrow id hatch b') /\
  (forall arrow agents, Forall (fun a => snd a = true) agents ->
     snd (draw_true_world true arrow agents) = true /\
     forall i, In (AText i) (fst (draw_true_world true arrow agents)) <-> In i (map fst agents)).
Proof.
  split; [reflexivity|]. intros arrow agents F. induction F as [|[i p] r Hp F IH]; [cbn; tauto|]. cbn [snd] in Hp. subst p.
  destruct IH as [IH1 IH2]. cbn [draw_true_world]. unfold draw_agent, done. cbn [fst snd]. split; [exact IH1|].
  intros j. rewrite in_app_iff, IH2. cbn [map fst In]. destruct arrow; cbn [app In]; intuition congruence.
Qed.
Print Assumptions C117_draw_agent_id_refuted.
(** drawTrueWorld draws every agent like drawAgent without hatching, in their order, up to the first one without a polygon, which ends it. *)
Theorem C117_true_world : forall ids arrow agents,
  (forall i agents', agents = (i, false) :: agents' -> draw_true_world ids arrow agents = ([], false)) /\
  (forall i agents', agents = (i, true) :: agents' ->
     fst (draw_true_world ids arrow agents) = fst (draw_agent true ids arrow i false false) ++ fst (draw_true_world ids arrow agents') /\
     snd (draw_true_world ids arrow agents) = snd (draw_true_world ids arrow agents')) /\
  (snd (draw_true_world ids arrow agents) = true <-> Forall (fun a => snd a = true) agents) /\
  ~ In (APolygon true) (fst (draw_true_world ids arrow agents)).
Proof.
  intros ids arrow agents. split; [intros i r ->; reflexivity|]. split; [intros i r ->; split; reflexivity|].
  induction agents as [|[i p] r [IH1 IH2]]; [cbn; split; [split; auto|tauto]|]. cbn [draw_true_world]. destruct p.
  - unfold draw_agent, done. cbn [fst snd]. split.
    + rewrite IH1. split; [constructor; auto|]. intros F. now inversion F.
    + rewrite in_app_iff. intros [H|H]; [|contradiction]. destruct ids, arrow; cbn in H; intuition discriminate.
  - unfold draw_agent, raised. cbn [fst snd]. split; [split; [discriminate|]|cbn; tauto]. intros F. inversion F. cbn in *. discriminate.
Qed.
Print Assumptions C117_true_world.
(** The other method for all agents, drawAgents, never draws anything: it raises as soon as it has something to draw. *)
Theorem C117_draw_agents_refuted : forall inv valid agents,
  fst (draw_agents inv valid agents) = [] /\
  (snd (draw_agents inv valid agents) = true <-> forall i, In i agents -> ~ In i valid /\ inv = false).
Proof.
  intros inv valid agents. induction agents as [|i r [IH1 IH2]]; [cbn; split; [reflexivity|split; [intros _ j []|reflexivity]]|].
  cbn [draw_agents]. destruct (existsb (N.eqb i) valid) eqn:V.
  - split; [reflexivity|]. split; [discriminate|]. intros H. apply existsb_exists in V. destruct V as (j & Hj & Ej). apply N.eqb_eq in Ej. subst j.
    destruct (H i (or_introl eq_refl)) as [N _]. contradiction.
  - assert (NV : ~ In i valid).
    { intros I. rewrite <- not_true_iff_false in V. apply V. apply existsb_exists. exists i. split; [exact I|apply N.eqb_refl]. }
    destruct inv.
    + split; [reflexivity|]. split; [discriminate|]. intros H. destruct (H i (or_introl eq_refl)). discriminate.
    + split; [exact IH1|]. rewrite IH2. split; intros H j Hj; [destruct Hj as [<-|Hj]; auto|apply H; right; exact Hj].
Qed.
Print Assumptions C117_draw_agents_refuted.
(** The id is written in the middle between the front and the rear of the vehicle, across it. *)
Theorem C117_text : forall front rear x y theta,
  text_center front rear x y theta =
    (((x + front * cos theta) + (x - rear * cos theta)) / 2, ((y + front * sin theta) + (y - rear * sin theta)) / 2)%R /\
  (text_rotation theta = theta * 180 / PI - 90)%R.
Proof.
  intros front rear x y theta. split.
  - unfold text_center. apply pair_equal_spec. split; field.
  - unfold text_rotation. pose proof PI_RGT_0. rewrite Rmin_right by lra. field. lra.
Qed.
Print Assumptions C117_text.

(** ** RSS texts: raises without an RSS evaluator; else a line for each agent at its own place and the verdict: every agent is safe
    longitudinally or laterally. *)
Lemma first_rss_spec {A} (evs : list (option A)) :
  match first_rss evs with
  | None => forall e, In e evs -> e = None
  | Some r => exists pre post, evs = pre ++ Some r :: post /\ forall e, In e pre -> e = None
  end.
Proof.
  induction evs as [|[r|] evs IH]; cbn [first_rss]; [intros e []|exists [], evs; split; [reflexivity|intros e []]|].
  destruct (first_rss evs) as [r|].
  - destruct IH as (pre & post & -> & H). exists (None :: pre), post. split; [reflexivity|]. intros e [<-|I]; [reflexivity|apply H, I].
  - intros e [<-|I]; [reflexivity|apply IH, I].
Qed.
Lemma rss_lines_in : forall rs k id lon lat y, In (TAgent id lon lat y) (rss_lines k rs) ->
  exists j, nth_error rs j = Some (id, (lon, lat)) /\ y = ((88 # 100) - (3 # 100) * inject_Z (Z.of_nat (k + j)))%Q.
Proof.
  induction rs as [|[i [a b]] rs IH]; intros k id lon lat y H; [destruct H|]. cbn [rss_lines] in H. destruct H as [H|H].
  - injection H as <- <- <- <-. exists 0. rewrite Nat.add_0_r. auto.
  - apply IH in H. destruct H as (j & H & ->). exists (S j). split; [exact H|]. rewrite Nat.add_succ_r. reflexivity.
Qed.
Lemma rss_lines_nth : forall rs k j id lon lat, nth_error rs j = Some (id, (lon, lat)) ->
  In (TAgent id lon lat ((88 # 100) - (3 # 100) * inject_Z (Z.of_nat (k + j)))%Q) (rss_lines k rs).
Proof.
  induction rs as [|[i [a b]] rs IH]; intros k j id lon lat H; [destruct j; discriminate|]. cbn [rss_lines]. destruct j as [|j].
  - cbn in H. injection H as <- <- <-. rewrite Nat.add_0_r. left. reflexivity.
  - right. rewrite Nat.add_succ_r. apply (IH (S k)). exact H.
Qed.
Theorem C117_rss_texts : forall evs ego,
  ((forall e, In e evs -> e = None) -> draw_rss_debug evs ego = ([], false)) /\
  forall pre rs post, evs = pre ++ Some rs :: post -> (forall e, In e pre -> e = None) ->
    snd (draw_rss_debug evs ego) = true /\
    (forall id lon lat y, In (TAgent id lon lat y) (fst (draw_rss_debug evs ego)) <->
       exists j, nth_error rs j = Some (id, (lon, lat)) /\ y = ((88 # 100) - (3 # 100) * inject_Z (Z.of_nat j))%Q) /\
    exists safe, In (TOverall ego safe) (fst (draw_rss_debug evs ego)) /\ (forall e s, In (TOverall e s) (fst (draw_rss_debug evs ego)) -> e = ego /\ s = safe) /\
      (safe = true <-> forall id lon lat, In (id, (lon, lat)) rs -> lon = true \/ lat = true).
Proof.
  intros evs ego. split.
  - intros H. unfold draw_rss_debug. pose proof (first_rss_spec evs) as S. destruct (first_rss evs) as [r|]; [|reflexivity].
    destruct S as (pre & post & -> & _). specialize (H (Some r)). rewrite in_app_iff in H. cbn in H. assert (Some r = None) by auto. discriminate.
  - intros pre rs post -> Hp. assert (F : first_rss (pre ++ Some rs :: post) = Some rs).
    { induction pre as [|e pre IH]; [reflexivity|]. cbn. rewrite (Hp e (or_introl eq_refl)). apply IH. intros; apply Hp; right; assumption. }
    unfold draw_rss_debug. rewrite F. cbn [fst snd done]. unfold done. cbn [fst snd]. split; [reflexivity|].
    set (safe := fold_left (fun s r => s && (fst (snd r) || snd (snd r))) rs true).
    assert (NO : forall k e s, ~ In (TOverall e s) (rss_lines k rs)).
    { intros k. generalize k. clear. induction rs as [|[i [a b]] rs IH]; intros k e s H; [destruct H|]. cbn in H. destruct H as [H|H]; [discriminate|]. apply IH in H. exact H. }
    split.
    + intros id lon lat y. rewrite in_app_iff. split.
      * intros [H|[H|[]]]; [|discriminate]. destruct rs as [|r0 rs']; [destruct H|]. destruct H as [H|H]; [discriminate|].
        apply rss_lines_in in H. exact H.
      * intros (j & H & ->). left. destruct rs as [|r0 rs']; [destruct j; discriminate|]. right. apply (rss_lines_nth _ 0). exact H.
    + exists safe. split; [apply in_or_app; right; left; reflexivity|]. split.
      * intros e s H. apply in_app_iff in H. destruct H as [H|[H|[]]]; [|injection H as <- <-; auto]. exfalso.
        destruct rs as [|r0 rs']; [destruct H|]. destruct H as [H|H]; [discriminate|]. exact (NO 0 e s H).
      * unfold safe. assert (G : forall (l : list (N * (bool * bool))) b, fold_left (fun s r => s && (fst (snd r) || snd (snd r))) l b = true <->
          b = true /\ forall id lon lat, In (id, (lon, lat)) l -> lon = true \/ lat = true).
        { clear. induction l as [|[i [a c]] l IH]; intros b; cbn [fold_left]; [split; [intros H; split; [exact H|intros ? ? ? []]|tauto]|].
          rewrite IH, andb_true_iff. cbn [fst snd]. rewrite orb_true_iff. split.
          - intros [[H1 H2] H3]. split; [exact H1|]. intros id lon lat [E|I]; [injection E as <- <- <-; exact H2|exact (H3 id lon lat I)].
          - intros [H1 H2]. split; [split; [exact H1|]|]; [apply (H2 i a c); left; reflexivity|intros id lon lat I; apply (H2 id lon lat); right; exact I]. }
        rewrite G. tauto.
Qed.
Print Assumptions C117_rss_texts.

(** RSS shapes: the ego's, and for each agent of the world with an answer one in the colour of the answer. *)
Theorem C117_rss_shapes : forall evs agents ego rs pre post, evs = pre ++ Some rs :: post -> (forall e, In e pre -> e = None) ->
  NoDup (map fst rs) ->
  (In ego agents -> snd (draw_rss_responses evs agents ego) = true /\ In (REgo ego) (fst (draw_rss_responses evs agents ego)) /\
     forall i g, In (RAgent i g) (fst (draw_rss_responses evs agents ego)) <-> In i agents /\ In (i, g) rs) /\
  (~ In ego agents -> draw_rss_responses evs agents ego = ([], false)).
Proof.
  intros evs agents ego rs pre post -> Hp ND. assert (F : first_rss (pre ++ Some rs :: post) = Some rs).
  { induction pre as [|e pre IH]; [reflexivity|]. cbn. rewrite (Hp e (or_introl eq_refl)). apply IH. intros; apply Hp; right; assumption. }
  unfold draw_rss_responses. rewrite F. split; intros H.
  - assert (X : existsb (N.eqb ego) agents = true) by (apply existsb_exists; exists ego; split; [exact H|apply N.eqb_refl]). rewrite X.
    unfold done. cbn [fst snd]. split; [reflexivity|]. split; [left; reflexivity|].
    assert (AN : forall i g, answer i rs = Some g <-> In (i, g) rs).
    { clear - ND. intros i g. unfold answer. induction rs as [|[j b] rs IH]; cbn; [split; [discriminate|intros []]|].
      apply NoDup_cons_iff in ND. destruct ND as [NI ND]. specialize (IH ND). cbn [fst] in *. destruct (N.eqb_spec i j) as [->|NE]; cbn.
      - split; [intros E; injection E as <-; left; reflexivity|]. intros [E|I]; [injection E as <-; reflexivity|]. exfalso. apply NI. apply in_map_iff. exists (j, g). auto.
      - rewrite IH. split; [auto|]. intros [E|I]; [congruence|exact I]. }
    intros i g. split.
    + intros [E|I]; [discriminate|]. apply in_flat_map in I. destruct I as (j & Ij & K). destruct (answer j rs) as [b|] eqn:E; [|destruct K].
      destruct K as [K|[]]. injection K as <- <-. split; [exact Ij|apply AN, E].
    + intros [I J]. right. apply in_flat_map. exists i. split; [exact I|]. rewrite (proj2 (AN i g) J). left. reflexivity.
  - destruct (existsb (N.eqb ego) agents) eqn:X; [|reflexivity]. exfalso. apply existsb_exists in X. destruct X as (j & J & E). apply N.eqb_eq in E. subst j. contradiction.
Qed.
Print Assumptions C117_rss_shapes.
Theorem C117_rss_shapes_no_evaluator : forall evs agents ego, (forall e, In e evs -> e = None) -> draw_rss_responses evs agents ego = ([], false).
Proof.
  intros evs agents ego H. unfold draw_rss_responses. pose proof (first_rss_spec evs) as S. destruct (first_rss evs) as [r|]; [|reflexivity].
  destruct S as (pre & post & -> & _). specialize (H (Some r)). rewrite in_app_iff in H. cbn in H. assert (Some r = None) by auto. discriminate.
Qed.
Print Assumptions C117_rss_shapes_no_evaluator.

(** ** Braking distances. For agents whose polygons can all be computed each is drawn once, with the ego's parameters for the
    evaluated agent and the others' for the others. *)
Theorem C117_braking : forall {Shape} (compute : bool -> N -> option Shape) eval_id agents poly,
  (forall i, In i agents -> compute (N.eqb eval_id i) i = Some (poly i)) ->
  draw_braking compute eval_id agents = (map (fun i => (i, poly i)) agents, true).
Proof.
  intros Shape compute eval_id agents poly. unfold draw_braking. generalize (@None Shape). induction agents as [|i r IH]; intros prev H; [reflexivity|].
  cbn [braking_from map]. rewrite (H i) by (left; reflexivity). rewrite IH by (intros; apply H; right; assumption). reflexivity.
Qed.
Print Assumptions C117_braking.
(** If one cannot, the polygon of the last one that could is drawn in its place; if the first cannot, it raises. *)
Theorem C117_braking_refuted : forall {Shape} (compute : bool -> N -> option Shape) eval_id,
  (forall i r, compute (N.eqb eval_id i) i = None -> draw_braking compute eval_id (i :: r) = ([], false)) /\
  (forall i p r, compute (N.eqb eval_id i) i = Some p -> snd (draw_braking compute eval_id (i :: r)) = true /\
     map fst (fst (draw_braking compute eval_id (i :: r))) = i :: r) /\
  (forall pre i p mid k r, compute (N.eqb eval_id i) i = Some p -> (forall j, In j mid -> compute (N.eqb eval_id j) j = None) ->
     compute (N.eqb eval_id k) k = None -> snd (draw_braking compute eval_id (pre ++ i :: mid ++ k :: r)) = true ->
     nth_error (fst (draw_braking compute eval_id (pre ++ i :: mid ++ k :: r))) (length pre + 1 + length mid) = Some (k, p)).
Proof.
  intros Shape compute eval_id. split; [|split].
  - intros i r H. unfold draw_braking. cbn [braking_from]. rewrite H. reflexivity.
  - intros i p r H. unfold draw_braking. cbn [braking_from]. rewrite H.
    assert (G : forall r q, snd (braking_from compute eval_id (Some q) r) = true /\ map fst (fst (braking_from compute eval_id (Some q) r)) = r).
    { clear. induction r as [|i r IH]; intros q; [split; reflexivity|]. cbn [braking_from]. destruct (compute (N.eqb eval_id i) i) as [p|].
      - destruct (IH p) as [A B]. cbn [fst snd map]. rewrite B. auto.
      - destruct (IH q) as [A B]. cbn [fst snd map]. rewrite B. auto. }
    destruct (G r p) as [A B]. cbn [fst snd map]. rewrite B. auto.
  - intros pre i p mid k r Hi Hm Hk. unfold draw_braking. generalize (@None Shape).
    assert (G : forall mid q, (forall j, In j mid -> compute (N.eqb eval_id j) j = None) ->
      nth_error (fst (braking_from compute eval_id (Some q) (mid ++ k :: r))) (length mid) = Some (k, q)).
    { clear - Hk. induction mid as [|j mid IH]; intros q H; cbn [app braking_from length].
      - rewrite Hk. reflexivity.
      - rewrite (H j) by (left; reflexivity). cbn [fst nth_error]. apply IH. intros; apply H; right; assumption. }
    induction pre as [|x pre IH]; intros prev; cbn [app braking_from length plus].
    + rewrite Hi. cbn [fst snd nth_error]. intros _. apply G, Hm.
    + destruct (match compute (N.eqb eval_id x) x with Some p0 => Some p0 | None => prev end) as [q|] eqn:E; [|discriminate].
      cbn [fst snd nth_error]. intros S. apply IH. exact S.
Qed.
Print Assumptions C117_braking_refuted.

(** ** The state of an RSS conformant behaviour: its safety polygons in the colours of their agents, then, if ids are drawn, a label
    for a longitudinal and a label for a lateral response, beside each other; nothing for other behaviours. *)
Theorem C117_rss_state : forall {Shape Color} lon l r (polys : list (N * Shape)) (cmap : N -> option Color) ids,
  draw_rss_state None polys cmap ids = ([], true) /\
  ((forall i s, In (i, s) polys -> cmap i <> None) ->
    snd (draw_rss_state (Some (lon, l, r)) polys cmap ids) = true /\
    (forall s c, In (SPolygon s c) (fst (draw_rss_state (Some (lon, l, r)) polys cmap ids)) <-> exists i, In (i, s) polys /\ cmap i = Some c) /\
    (forall v o, In (SLabel v o) (fst (draw_rss_state (Some (lon, l, r)) polys cmap ids)) <->
       ids = true /\ match v with LON => lon <> 0%Z /\ o = 0%Z | LAT => (l <> 0%Z \/ r <> 0%Z) /\ o = (if Z.eqb lon 0 then 0%Z else 5%Z) end)) /\
  (forall i s, In (i, s) polys -> cmap i = None ->
    snd (draw_rss_state (Some (lon, l, r)) polys cmap ids) = false /\ forall v o, ~ In (SLabel v o) (fst (draw_rss_state (Some (lon, l, r)) polys cmap ids))).
Proof.
  intros Shape Color lon l r polys cmap ids. split; [reflexivity|].
  assert (NL : forall v o, ~ In (SLabel v o) (fst (draw_polygons cmap polys))).
  { intros v o. induction polys as [|[i s] t IH]; cbn; [auto|]. destruct (cmap i); cbn; [|auto]. intros [E|I]; [discriminate|auto]. }
  split.
  - intros H. assert (P : snd (draw_polygons cmap polys) = true /\ forall s c, In (SPolygon s c) (fst (draw_polygons cmap polys)) <-> exists i, In (i, s) polys /\ cmap i = Some c).
    { clear NL. induction polys as [|[i s] t IH]; [split; [reflexivity|]; intros s c; cbn; split; [intros []|intros (i & [] & _)]|].
      destruct IH as [IH1 IH2]; [intros; apply (H i0 s0); right; assumption|]. cbn [draw_polygons].
      destruct (cmap i) as [c|] eqn:E; [|exfalso; apply (H i s); [left; reflexivity|exact E]]. cbn [fst snd]. split; [exact IH1|].
      intros s' c'. cbn [In]. rewrite IH2. split.
      - intros [K|(j & J & K)]; [injection K as <- <-; exists i; auto|exists j; auto].
      - intros (j & [J|J] & K); [injection J as <- <-; left; congruence|right; exists j; auto]. }
    destruct P as [P1 P2]. unfold draw_rss_state. rewrite P1. unfold done. cbn [fst snd]. split; [reflexivity|].
    assert (NP : forall vs o s c, ~ In (SPolygon s c) (@labels_from Shape Color o vs)).
    { induction vs as [|v vs IH]; intros o s c; cbn; [auto|]. intros [E|I]; [discriminate|exact (IH _ _ _ I)]. }
    split.
    + intros s c. rewrite in_app_iff, P2. split; [|auto]. intros [K|K]; [exact K|]. exfalso. destruct ids; [exact (NP _ _ _ _ K)|destruct K].
    + intros v o. rewrite in_app_iff. destruct ids; [|split; [intros [K|[]]; exfalso; exact (NL v o K)|intros [K _]; discriminate]].
      unfold violations. destruct (Z.eqb_spec lon 0) as [El|El], (Z.eqb_spec l 0) as [E1|E1], (Z.eqb_spec r 0) as [E2|E2]; cbn [negb orb app labels_from In Z.add];
      (split; [intros [K|K]; [exfalso; exact (NL v o K)|]; repeat (destruct K as [K|K]; [injection K as <- <-; auto|]); destruct K
              |intros [_ K]; right; destruct v; destruct K as [K ->]; auto; try tauto; lia]).
  - intros i s I E.
    assert (P : snd (draw_polygons cmap polys) = false).
    { clear NL. induction polys as [|[j t] ps IH]; [destruct I|]. cbn [draw_polygons]. destruct I as [I|I].
      - injection I as <- <-. rewrite E. reflexivity.
      - destruct (cmap j); [|reflexivity]. cbn [snd]. apply IH, I. }
    unfold draw_rss_state. rewrite P. split; [exact P|exact NL].
Qed.
Print Assumptions C117_rss_state.

(** Non-vacuity. *)
Example C117_nonvacuous :
  draw_history true 1 [tt; tt; tt; tt; tt] = [(tt, 0); (tt, 1 - (8 # 10) * 4 / (34 # 10)); (tt, 1 - (8 # 10) * 3 / (34 # 10)); (tt, 1 - (8 # 10) * 2 / (34 # 10)); (tt, 1 - (8 # 10) * 1 / (34 # 10))]%Q /\
  draw_goal (GSequential [GSequential [GLimits 3; GPolygon 4]; GPolygon 5]) = ([3], true) /\
  draw_rss_debug [None; Some [(7%N, (true, false)); (8%N, (false, false))]] 1 = ([THeader; TAgent 7 true false ((88 # 100) - (3 # 100) * 0); TAgent 8 false false ((88 # 100) - (3 # 100) * 1); TOverall 1 false], true) /\
  draw_braking (fun own i => if N.eqb i 2 then None else Some (own, i)) 1 [1%N; 2%N; 3%N] = ([(1%N, (true, 1%N)); (2%N, (true, 1%N)); (3%N, (false, 3%N))], true) /\
  draw_rss_state (Some (1, 0, 2)%Z) [(4%N, tt)] (fun _ => Some tt) true = ([SPolygon tt tt; SLabel LON 0; SLabel LAT 5], true).
Proof. repeat split. Qed.
