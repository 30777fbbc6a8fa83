(* C104: which agents a picture shows, and their colours. *)
From Coq Require Import List ZArith QArith NArith Bool Lia.
From Verif Require Import Model_Map Model_Viewer Props_Camera.
Import ListNotations.
Local Open Scope nat_scope.

(* --- specification --- *)
Definition is_body (m : mark) : bool := match m with AgentBody _ _ _ _ _ _ => true | _ => false end.
Definition body_id (m : mark) : N := match m with AgentBody i _ _ _ _ _ => i | GoalOf i => i | HistoryOf i _ _ => i end.
Definition is_history (m : mark) : bool := match m with HistoryOf _ _ _ => true | _ => false end.
Definition is_goal (m : mark) : bool := match m with GoalOf _ => true | _ => false end.
Definition valid (w : vworld) (i : N) : Prop := In i (vw_valid w).
Definition evaluated (evals : option (list N)) (i : N) : Prop := exists l, evals = Some l /\ In i l.
(* the ids meeting P, in the order of the world *)
Definition ids_where (P : N -> Prop) (all l : list N) : Prop :=
  exists p, (forall i, In i all -> (p i = true <-> P i)) /\ l = filter p all.

(* rank: the order in which agents were given a colour; the 19th and 20th agent share the colour of the 18th, then the
   colours start again *)
Definition colour_of_rank (k : nat) : colour := Palette (Nat.min (k mod 20) 17).
Definition coloured (o : voptions) (rank : N -> option nat) (m : mark) : Prop :=
  match m with
  | GoalOf _ => True
  | HistoryOf i line face =>
      exists f, (line = EvalLine /\ f = EvalFace \/ line = OtherLine /\ f = OtherFace /\ use_colormap o = false \/
                 exists k, use_colormap o = true /\ rank i = Some k /\ f = colour_of_rank k /\
                           line = (if fixed_line o then OtherLine else colour_of_rank k)) /\
                face = if draw_history_face o then f else White
  | AgentBody i line face ev _ solid =>
      exists f, (ev = true /\ line = EvalLine /\ f = EvalFace \/
                 ev = false /\ use_colormap o = false /\ line = OtherLine /\ f = OtherFace \/
                 ev = false /\ use_colormap o = true /\ exists k, rank i = Some k /\ f = colour_of_rank k /\
                           line = (if fixed_line o then OtherLine else colour_of_rank k)) /\
                face = if solid then f else White
  end.

(* --- proofs --- *)
Fixpoint index (i : N) (cm : colour_map) : option nat :=
  match cm with
  | [] => None
  | (j, _) :: r => if N.eqb i j then Some 0 else option_map S (index i r)
  end.
Definition wf (cm : colour_map) : Prop := forall n i k, nth_error cm n = Some (i, k) -> k = from_map (n mod 20).
Definition wf_from (b : nat) (cm : colour_map) : Prop := forall n i k, nth_error cm n = Some (i, k) -> k = from_map ((b + n) mod 20).
Lemma lookup_index b cm i : wf_from b cm -> lookup i cm = option_map (fun n => from_map ((b + n) mod 20)) (index i cm).
Proof.
  revert b. induction cm as [|[j c] cm IH]; intros b W; [reflexivity|]. cbn [lookup index]. destruct (N.eqb_spec i j) as [->|Ne].
  - cbn [option_map]. f_equal. apply (W 0 j c). reflexivity.
  - rewrite (IH (S b)).
    + destruct (index i cm); cbn [option_map]; auto. do 3 f_equal. lia.
    + intros n k c' E. rewrite (W (S n) k c' E). do 2 f_equal. lia.
Qed.
Lemma lookup_wf cm i : wf cm -> lookup i cm = option_map colour_of_rank (index i cm).
Proof. intros W. rewrite (lookup_index 0 cm i W). reflexivity. Qed.
Lemma index_app i cm ext n : index i cm = Some n -> index i (cm ++ ext) = Some n.
Proof.
  revert n. induction cm as [|[j c] cm IH]; intros n E; cbn in *; [discriminate|]. destruct (N.eqb i j); auto.
  destruct (index i cm); [|discriminate]. rewrite (IH n0 eq_refl). exact E.
Qed.
Lemma index_lt i cm n : index i cm = Some n -> n < length cm.
Proof.
  revert n. induction cm as [|[j c] cm IH]; intros n E; cbn in *; [discriminate|]. destruct (N.eqb i j).
  - inversion E; lia.
  - destruct (index i cm) eqn:X; [|discriminate]. inversion E. specialize (IH n0 eq_refl). lia.
Qed.
Lemma index_inj i j cm n : index i cm = Some n -> index j cm = Some n -> i = j.
Proof.
  revert n. induction cm as [|[k c] cm IH]; intros n A B; cbn in *; [discriminate|].
  destruct (N.eqb_spec i k), (N.eqb_spec j k); subst; auto.
  - destruct (index j cm); cbn in *; congruence.
  - destruct (index i cm); cbn in *; congruence.
  - destruct (index i cm) as [u|] eqn:X, (index j cm) as [v|] eqn:Y; try discriminate. cbn in *. apply (IH u); auto. congruence.
Qed.

(* one colour request: the map only grows and stays well formed; the answer agrees with every later map *)
Lemma agent_colour_ok o cm i evals line face ev cm1 : wf cm -> agent_colour o cm i evals = ((line, face, ev), cm1) ->
  wf cm1 /\ (exists ext, cm1 = cm ++ ext) /\ (ev = true <-> evaluated evals i) /\
  forall ext, (ev = true /\ line = EvalLine /\ face = EvalFace \/
      ev = false /\ use_colormap o = false /\ line = OtherLine /\ face = OtherFace \/
      ev = false /\ use_colormap o = true /\ exists k, index i (cm1 ++ ext) = Some k /\ face = colour_of_rank k /\
                line = (if fixed_line o then OtherLine else colour_of_rank k)).
Proof.
  intros W. unfold agent_colour.
  assert (Ev : forall b, (match evals with Some l => has_id i l | None => false end) = b -> (b = true <-> evaluated evals i)).
  { intros b <-. unfold evaluated. destruct evals as [l|].
    - rewrite has_id_iff. split; [eauto|]. intros (l' & E & I). congruence.
    - split; [discriminate|]. intros (l' & E & _). discriminate. }
  destruct (match evals with Some l => has_id i l | None => false end) eqn:H; specialize (Ev _ eq_refl).
  { intros E. inversion E; subst. split; auto. split; [exists []; now rewrite app_nil_r|]. split; auto. }
  destruct (use_colormap o) eqn:U.
  - set (cm' := match lookup i cm with Some _ => cm | None => cm ++ [(i, from_map (Nat.modulo (length cm) colormap_size))] end).
    assert (W' : wf cm').
    { unfold cm'. destruct (lookup i cm); auto. intros n j k E. destruct (lt_eq_lt_dec n (length cm)) as [[L|Eq]|G].
      - rewrite nth_error_app1 in E by lia. eauto.
      - subst n. rewrite nth_error_app2, Nat.sub_diag in E by lia. inversion E. reflexivity.
      - rewrite nth_error_app2 in E by lia. replace (n - length cm) with (S (n - length cm - 1)) in E by lia.
        cbn in E. now destruct (n - length cm - 1). }
    assert (X : exists ext, cm' = cm ++ ext).
    { unfold cm'. destruct (lookup i cm); [exists []; now rewrite app_nil_r|eauto]. }
    assert (In' : exists k, index i cm' = Some k).
    { unfold cm'. rewrite (lookup_wf cm i W). destruct (index i cm) as [k|] eqn:Ix; cbn [option_map]; [eauto|].
      clear - Ix. generalize (from_map (Nat.modulo (length cm) colormap_size)) as c0. intros c0.
      induction cm as [|[j c] cm IH]; cbn [app index] in *; [rewrite N.eqb_refl; eauto|].
      destruct (N.eqb i j); [discriminate|]. destruct (index i cm); [discriminate|]. destruct (IH eq_refl) as (k & ->). cbn. eauto. }
    destruct In' as (k & Ik). clearbody cm'. rewrite (lookup_wf cm' i W'), Ik. cbn [option_map]. intros E. inversion E; subst.
    split; auto. split; auto. split; auto. intros ext. right. right. split; auto. split; auto.
    exists k. split; [now apply index_app|auto].
  - intros E. inversion E; subst. split; auto. split; [exists []; now rewrite app_nil_r|]. split; auto. intros ext. right. left. auto.
Qed.

Lemma draw_agents_ok o vl evals l : forall cm m cm', wf cm -> draw_agents o vl evals l cm = (m, cm') ->
  wf cm' /\ (exists ext, cm' = cm ++ ext) /\
  (forall ext, Forall (coloured o (fun i => index i (cm' ++ ext))) m) /\
  map body_id (filter is_body m) = filter (fun i => has_id i vl || draw_invalid o) (map fst l) /\
  map body_id (filter is_history m) = filter (fun i => draw_history o && has_id i vl) (map fst l) /\
  filter is_goal m = [] /\
  Forall (fun x => match x with AgentBody i _ _ ev hat sol =>
            (ev = true <-> evaluated evals i) /\ (hat = true <-> ~ In i vl) /\ sol = true | _ => True end) m.
Proof.
  induction l as [|[i a] l IH]; intros cm m cm' W E; cbn [draw_agents] in E.
  - inversion E; subst. split; auto. split; [exists []; now rewrite app_nil_r|]. repeat split; auto.
  - destruct (agent_colour o cm i evals) as [[[line face] ev] cm1] eqn:A. destruct (draw_agents o vl evals l cm1) as [m2 cm2] eqn:D.
    destruct (agent_colour_ok o cm i evals line face ev cm1 W A) as (W1 & (e1 & X1) & Ev & Col).
    destruct (IH cm1 m2 cm2 W1 D) as (W2 & (e2 & X2) & C2 & B2 & H2 & G2 & F2).
    inversion E; subst m cm'. clear E IH. split; auto. split; [exists (e1 ++ e2); subst; now rewrite app_assoc|].
    assert (Col2 : forall ext, ev = true /\ line = EvalLine /\ face = EvalFace \/
      ev = false /\ use_colormap o = false /\ line = OtherLine /\ face = OtherFace \/
      ev = false /\ use_colormap o = true /\ exists k, index i (cm2 ++ ext) = Some k /\ face = colour_of_rank k /\
                line = (if fixed_line o then OtherLine else colour_of_rank k)).
    { intros ext. rewrite X2, <- app_assoc. apply Col. }
    split.
    { intros ext. apply Forall_app. split; [|apply Forall_app; split; [|apply C2]].
      - destruct (draw_history o && has_id i vl); constructor; auto. cbn [coloured]. exists face. split; auto.
        destruct (Col2 ext) as [(_ & -> & ->)|[(_ & U & -> & ->)|(_ & U & k & Ik & -> & ->)]]; auto.
        right. right. exists k. auto.
      - destruct (has_id i vl || draw_invalid o); constructor; auto. cbn [coloured]. exists face. split; auto. }
    cbn [map fst filter]. rewrite !filter_app, !map_app, B2, H2.
    destruct (draw_history o && has_id i vl), (has_id i vl || draw_invalid o); cbn [filter is_body is_history is_goal map app body_id];
      (split; [reflexivity|]); (split; [reflexivity|]); (split; [exact G2|]); repeat apply Forall_app; repeat split; auto;
      repeat constructor; auto; cbn; try rewrite negb_true_iff, <- not_true_iff_false, has_id_iff; tauto.
Qed.

(* which agents have a colour *)
Lemma lookup_none (cm : colour_map) i : lookup i cm = None -> ~ In i (map fst cm).
Proof.
  induction cm as [|[j c] cm IH]; cbn; auto. destruct (N.eqb_spec i j); [discriminate|]. intros E [X|X]; [congruence|]. now apply IH.
Qed.
Lemma agent_colour_ids o cm i evals r cm1 (S : N -> Prop) : agent_colour o cm i evals = (r, cm1) -> S i ->
  NoDup (map fst cm) /\ (forall j, In j (map fst cm) -> S j) -> NoDup (map fst cm1) /\ (forall j, In j (map fst cm1) -> S j).
Proof.
  intros E Si (ND & Hs). unfold agent_colour in E. destruct (match evals with Some l => has_id i l | None => false end); [inversion E; subst; auto|].
  destruct (use_colormap o); [|inversion E; subst; auto].
  assert (X : cm1 = match lookup i cm with Some _ => cm | None => cm ++ [(i, from_map (Nat.modulo (length cm) colormap_size))] end).
  { match type of E with match ?x with _ => _ end = _ => destruct x end; inversion E; reflexivity. }
  subst cm1. clear E. destruct (lookup i cm) eqn:L; auto. apply lookup_none in L. rewrite map_app. cbn [map fst]. split.
  - clear - ND L. induction (map fst cm) as [|x l IH]; cbn; [repeat constructor; auto|]. inversion ND; subst. constructor.
    + rewrite in_app_iff. cbn. intros [I|[->|[]]]; [auto|]. apply L. now left.
    + apply IH; auto. intros I. apply L. now right.
  - intros j I. apply in_app_iff in I as [I|[<-|[]]]; auto.
Qed.
Lemma draw_agents_ids o vl evals (S : N -> Prop) l : forall cm m cm', draw_agents o vl evals l cm = (m, cm') -> (forall i, In i (map fst l) -> S i) ->
  NoDup (map fst cm) /\ (forall j, In j (map fst cm) -> S j) -> NoDup (map fst cm') /\ (forall j, In j (map fst cm') -> S j).
Proof.
  induction l as [|[i a] l IH]; intros cm m cm' E Hl H; cbn [draw_agents] in E; [inversion E; subst; auto|].
  destruct (agent_colour o cm i evals) as [[[line face] ev] cm1] eqn:A. destruct (draw_agents o vl evals l cm1) as [m2 cm2] eqn:D.
  inversion E; subst. eapply IH; [exact D| |].
  - intros j I. apply Hl. now right.
  - eapply agent_colour_ids; eauto. apply Hl. now left.
Qed.
Lemma draw_outlines_ids o evals (S : N -> Prop) l : forall cm m cm', draw_outlines o evals l cm = (m, cm') -> (forall i, In i (map fst l) -> S i) ->
  NoDup (map fst cm) /\ (forall j, In j (map fst cm) -> S j) -> NoDup (map fst cm') /\ (forall j, In j (map fst cm') -> S j).
Proof.
  induction l as [|[i a] l IH]; intros cm m cm' E Hl H; cbn [draw_outlines] in E; [inversion E; subst; auto|].
  destruct (agent_colour o cm i evals) as [[[line face] ev] cm1] eqn:A. destruct (draw_outlines o evals l cm1) as [m2 cm2] eqn:D.
  inversion E; subst. eapply IH; [exact D| |].
  - intros j I. apply Hl. now right.
  - eapply agent_colour_ids; eauto. apply Hl. now left.
Qed.

Lemma draw_outlines_ok o evals l : forall cm m cm', wf cm -> draw_outlines o evals l cm = (m, cm') ->
  wf cm' /\ (exists ext, cm' = cm ++ ext) /\
  (forall ext, Forall (coloured o (fun i => index i (cm' ++ ext))) m) /\
  map body_id m = map fst l /\
  Forall (fun x => exists i line ev, x = AgentBody i line White ev false false /\ (ev = true <-> evaluated evals i)) m.
Proof.
  induction l as [|[i a] l IH]; intros cm m cm' W E; cbn [draw_outlines] in E.
  - inversion E; subst. split; auto. split; [exists []; now rewrite app_nil_r|]. repeat split; auto.
  - destruct (agent_colour o cm i evals) as [[[line face] ev] cm1] eqn:A. destruct (draw_outlines o evals l cm1) as [m2 cm2] eqn:D.
    destruct (agent_colour_ok o cm i evals line face ev cm1 W A) as (W1 & (e1 & X1) & Ev & Col).
    destruct (IH cm1 m2 cm2 W1 D) as (W2 & (e2 & X2) & C2 & B2 & F2). inversion E; subst m cm'. clear E IH.
    split; auto. split; [exists (e1 ++ e2); subst; now rewrite app_assoc|]. split; [|split].
    + intros ext. constructor; [|apply C2]. cbn [coloured]. exists face. split; auto. rewrite X2, <- app_assoc. apply Col.
    + cbn [map fst body_id]. now rewrite B2.
    + constructor; auto. exists i, line, ev. auto.
Qed.

(* a picture of one world *)
Definition plain_picture (o : voptions) (debug_text : bool) (w : vworld) (ev : option (list N)) (m : list mark) (e : option vexn) : Prop :=
  (* drawing the reference line of an evaluated agent that does not exist ends the picture before anything is drawn *)
  (draw_reference o = true /\ (ev = Some [] \/ exists i r, ev = Some (i :: r) /\ ~ in_world w i) /\ m = [] /\ e <> None) \/
  (* otherwise *)
  (ids_where (fun i => valid w i \/ draw_invalid o = true) (agent_ids w) (map body_id (filter is_body m)) /\
   ids_where (fun i => valid w i /\ draw_history o = true) (agent_ids w) (map body_id (filter is_history m)) /\
   (exists p, (forall i a, In (i, a) (vw_agents w) -> (p (i, a) = true <-> draw_goals o = true /\ va_goal a = true /\ evaluated ev i)) /\
              map body_id (filter is_goal m) = map fst (filter p (vw_agents w))) /\
   Forall (fun x => match x with AgentBody i _ _ evd hatched with_id =>
             (evd = true <-> evaluated ev i) /\ (hatched = true <-> ~ valid w i) /\ with_id = true | _ => True end) m /\
   (e = None <-> (debug_text = true -> forall i r, ev = Some (i :: r) -> in_world w i) /\
                 (needs_ego o = true -> exists i r, ev = Some (i :: r)) /\
                 (draw_reference o = true -> ev <> Some [] /\ forall i r, ev = Some (i :: r) -> in_world w i))).

Lemma impl_ok c ratio o dt w ev s s' m e : wf (vs_colours s) -> draw_world_impl c ratio o dt w ev s = (s', m, e) ->
  wf (vs_colours s') /\ (exists ext, vs_colours s' = vs_colours s ++ ext) /\
  (forall ext, Forall (coloured o (fun i => index i (vs_colours s' ++ ext))) m) /\ plain_picture o dt w ev m e.
Proof.
  intros W. unfold draw_world_impl. set (v := update_view c ratio w ev (vs_view s)). clearbody v. cbv zeta.
  assert (HI : forall i, has_id i (agent_ids w) = true <-> in_world w i) by (intros i; rewrite has_id_iff; apply in_ids).
  assert (Ref : (exists x, (if draw_reference o then match ev with None => None | Some [] => Some VIndexError
      | Some (i :: _) => if has_id i (agent_ids w) then None else Some VKeyError end else None) = Some x /\
      draw_reference o = true /\ (ev = Some [] \/ exists i r, ev = Some (i :: r) /\ ~ in_world w i)) \/
    ((if draw_reference o then match ev with None => None | Some [] => Some VIndexError
      | Some (i :: _) => if has_id i (agent_ids w) then None else Some VKeyError end else None) = None /\
      (draw_reference o = true -> ev <> Some [] /\ forall i r, ev = Some (i :: r) -> in_world w i))).
  { destruct (draw_reference o); [|right; split; [auto|discriminate]]. destruct ev as [[|i r]|].
    - left. eauto.
    - destruct (has_id i (agent_ids w)) eqn:H.
      + right. split; auto. intros _. split; [discriminate|]. intros j q E. inversion E; subst. now apply HI.
      + left. eexists. split; [reflexivity|]. split; auto. right. exists i, r. split; auto. intros X. apply HI in X. congruence.
    - right. split; auto. intros _. split; [discriminate|]. intros j q E. discriminate. }
  destruct Ref as [(x & -> & Dr & Bad)|(-> & Good)].
  { intros E. inversion E; subst. cbn [vs_colours]. split; auto. split; [exists []; now rewrite app_nil_r|]. split; [auto|].
    left. repeat split; auto. discriminate. }
  set (goals := match ev with Some l => _ | None => [] end).
  destruct (draw_agents o (vw_valid w) ev (vw_agents w) (vs_colours s)) as [ma cm] eqn:D.
  destruct (draw_agents_ok o (vw_valid w) ev (vw_agents w) _ _ _ W D) as (W' & X & C & B & H & G & F).
  intros E. inversion E as [[E1 E2 E3]]. subst s' m. cbn [vs_colours]. clear E. split; auto. split; auto.
  assert (Gm : exists p, (forall i a, In (i, a) (vw_agents w) -> (p (i, a) = true <-> draw_goals o = true /\ va_goal a = true /\ evaluated ev i)) /\
              goals = map (fun ia => GoalOf (fst ia)) (filter p (vw_agents w))).
  { unfold goals, evaluated. destruct ev as [l|].
    - destruct (draw_goals o) eqn:Dg.
      + exists (fun ia => va_goal (snd ia) && has_id (fst ia) l). split; auto. intros i a _. cbn [fst snd].
        rewrite andb_true_iff, has_id_iff. split; [intros (A1 & A2); eauto|]. intros (_ & A1 & l' & El & A2). inversion El; subst; auto.
      + exists (fun _ => false). split; [intros; split; [discriminate|intros (A1 & _); discriminate]|].
        clear. induction (vw_agents w); auto.
    - exists (fun _ => false). split; [intros; split; [discriminate|intros (_ & _ & l & A1 & _); discriminate]|].
      clear. induction (vw_agents w); auto. }
  destruct Gm as (p & Hp & Eg). clearbody goals. subst goals.
  assert (Fb : filter is_body (map (fun ia => GoalOf (fst ia)) (filter p (vw_agents w))) = []) by (clear; induction (filter p (vw_agents w)); auto).
  assert (Fh : filter is_history (map (fun ia => GoalOf (fst ia)) (filter p (vw_agents w))) = []) by (clear; induction (filter p (vw_agents w)); auto).
  assert (Fg : map body_id (filter is_goal (map (fun ia => GoalOf (fst ia)) (filter p (vw_agents w)))) = map fst (filter p (vw_agents w)))
    by (clear; generalize (filter p (vw_agents w)); induction l as [|x l IHl]; [reflexivity|cbn [map filter is_goal body_id]; now rewrite IHl]).
  assert (AllG : forall P : mark -> Prop, (forall i, P (GoalOf i)) -> Forall P (map (fun ia => GoalOf (fst ia)) (filter p (vw_agents w)))).
  { clear. intros P HP. induction (filter p (vw_agents w)); cbn; auto. }
  split; [intros ext; apply Forall_app; split; [apply AllG; cbn; auto|apply C]|].
  right. rewrite !filter_app, Fb, Fh, G, app_nil_r. cbn [app]. split; [|split; [|split; [|split]]].
  - rewrite B. eexists. split; [|reflexivity]. intros i _. cbv beta. rewrite orb_true_iff, has_id_iff. reflexivity.
  - rewrite H. eexists. split; [|reflexivity]. intros i _. cbv beta. rewrite andb_true_iff, has_id_iff. unfold valid. tauto.
  - exists p. split; auto.
  - apply Forall_app. split; [apply AllG; auto|exact F].
  - clear - Good HI. unfold first_eval. split.
    + intros E. split; [|split; [|exact Good]].
      * intros -> i r ->. apply HI. destruct (has_id i (agent_ids w)); auto. discriminate.
      * intros Ne. rewrite Ne in E. destruct ev as [[|i r]|]; [| eauto |]; exfalso; destruct dt; discriminate.
    + intros (T & Ne & _). assert (Te : (if dt then match ev with Some (i :: _) => if has_id i (agent_ids w) then None else Some VKeyError | _ => None end
          else None) = None).
      { destruct dt; auto. destruct ev as [[|i r]|]; auto. rewrite (proj2 (HI i)); auto. now apply (T eq_refl i r). }
      rewrite Te. destruct (needs_ego o); auto. destruct (Ne eq_refl) as (i & r & ->). reflexivity.
Qed.

(* the evaluated agents a picture takes into account: none if the first one is not in the world *)
Definition effective (w : vworld) (evals ev : option (list N)) : Prop :=
  (exists i r, evals = Some (i :: r) /\ ~ in_world w i /\ ev = None) \/
  ((forall i r, evals = Some (i :: r) -> in_world w i) /\ ev = evals).
Definition picture (o : voptions) (dt : bool) (w : vworld) (sensed : N -> option vworld) (evals : option (list N))
    (m : list mark) (e : option vexn) : Prop :=
  exists ev, effective w evals ev /\
    ((forall i r, ev = Some (i :: r) -> sensed i = None) /\ plain_picture o dt w ev m e \/
     (* what the evaluated agent senses, over white outlines of all agents *)
     exists i r sw outlines inner, ev = Some (i :: r) /\ sensed i = Some sw /\ m = outlines ++ inner /\
       map body_id outlines = agent_ids w /\
       Forall (fun x => exists j line evd, x = AgentBody j line White evd false false /\ (evd = true <-> evaluated ev j)) outlines /\
       plain_picture o dt sw ev inner e).
Lemma draw_world_ok c ratio o dt w sensed evals s s' m e : wf (vs_colours s) ->
  draw_world c ratio o dt w sensed evals s = (s', m, e) ->
  wf (vs_colours s') /\ (exists ext, vs_colours s' = vs_colours s ++ ext) /\
  (forall ext, Forall (coloured o (fun i => index i (vs_colours s' ++ ext))) m) /\ picture o dt w sensed evals m e.
Proof.
  intros W. unfold draw_world. set (ev := match evals with Some (i :: r) => if has_id i (agent_ids w) then evals else None | _ => evals end).
  assert (Ef : effective w evals ev).
  { unfold effective, ev. destruct evals as [[|i r]|]; try (right; split; [intros; discriminate|reflexivity]).
    destruct (has_id i (agent_ids w)) eqn:H.
    - right. split; auto. intros j q E. inversion E; subst. apply in_ids. now apply has_id_iff.
    - left. exists i, r. split; auto. split; auto. intros X. apply in_ids, has_id_iff in X. congruence. }
  clearbody ev. cbv zeta.
  destruct (match ev with Some (i :: _) => sensed i | _ => None end) as [sw|] eqn:Se.
  - destruct ev as [[|i r]|]; try discriminate.
    destruct (draw_outlines o (Some (i :: r)) (vw_agents w) (vs_colours s)) as [m1 cm] eqn:D.
    destruct (draw_outlines_ok _ _ _ _ _ _ W D) as (W1 & (e1 & X1) & C1 & B1 & F1).
    destruct (draw_world_impl c ratio o dt sw (Some (i :: r)) (mkVS (vs_view s) cm)) as [[s2 m2] e2] eqn:I.
    destruct (impl_ok _ _ _ _ _ _ _ _ _ _ (W1 : wf (vs_colours (mkVS (vs_view s) cm))) I) as (W2 & (e3 & X2) & C2 & P2).
    cbn [vs_colours] in X2. intros E. inversion E; subst s' m e. split; auto. split; [exists (e1 ++ e3); rewrite X2, X1; now rewrite app_assoc|].
    split.
    + intros ext. apply Forall_app. split; [|apply C2]. rewrite X2, <- app_assoc. apply C1.
    + exists (Some (i :: r)). split; auto. right. exists i, r, sw, m1, m2. repeat split; auto.
  - intros E. destruct (impl_ok _ _ _ _ _ _ _ _ _ _ W E) as (W2 & X2 & C2 & P2). split; auto. split; auto. split; auto.
    exists ev. split; auto. left. split; auto. intros i r ->. exact Se.
Qed.

(* the ids a picture may colour *)
Definition appears (l : list (vworld * (N -> option vworld) * option (list N))) (i : N) : Prop :=
  exists w sensed evals, In (w, sensed, evals) l /\ (in_world w i \/ exists j sw, sensed j = Some sw /\ in_world sw i).
Lemma draw_world_ids c ratio o dt w sensed evals s s' m e (S : N -> Prop) :
  draw_world c ratio o dt w sensed evals s = (s', m, e) ->
  (forall i, in_world w i \/ (exists j sw, sensed j = Some sw /\ in_world sw i) -> S i) ->
  NoDup (map fst (vs_colours s)) /\ (forall j, In j (map fst (vs_colours s)) -> S j) ->
  NoDup (map fst (vs_colours s')) /\ (forall j, In j (map fst (vs_colours s')) -> S j).
Proof.
  intros E Hs H.
  assert (Im : forall w ev s s' m e, draw_world_impl c ratio o dt w ev s = (s', m, e) -> (forall i, in_world w i -> S i) ->
    NoDup (map fst (vs_colours s)) /\ (forall j, In j (map fst (vs_colours s)) -> S j) ->
    NoDup (map fst (vs_colours s')) /\ (forall j, In j (map fst (vs_colours s')) -> S j)).
  { clear. intros w ev s s' m e E Hw H. unfold draw_world_impl in E. cbv zeta in E.
    match type of E with match ?x with _ => _ end = _ => destruct x end; [inversion E; subst; exact H|].
    destruct (draw_agents o (vw_valid w) ev (vw_agents w) (vs_colours s)) as [ma cm] eqn:D. inversion E; subst. cbn [vs_colours].
    eapply draw_agents_ids; eauto. intros i I. apply Hw. now apply in_ids. }
  unfold draw_world in E. cbv zeta in E. set (ev := match evals with Some (i :: r) => if has_id i (agent_ids w) then evals else None | _ => evals end) in *.
  clearbody ev. destruct (match ev with Some (i :: _) => sensed i | _ => None end) as [sw|] eqn:Se.
  - destruct (draw_outlines o ev (vw_agents w) (vs_colours s)) as [m1 cm] eqn:D.
    destruct (draw_world_impl c ratio o dt sw ev (mkVS (vs_view s) cm)) as [[s2 m2] e2] eqn:I. inversion E; subst.
    eapply Im; [exact I| |].
    + intros i Hi. apply Hs. right. destruct ev as [[|k r]|]; try discriminate. eauto.
    + eapply draw_outlines_ids; [exact D| |exact H]. intros i Hi. apply Hs. left. now apply in_ids.
  - eapply Im; [exact E| |exact H]. intros i Hi. apply Hs. now left.
Qed.

(* --- the theorems --- *)
Lemma draw_all_ok c ratio o dt l : forall s s' ms, wf (vs_colours s) -> draw_all c ratio o dt l s = (s', ms) ->
  wf (vs_colours s') /\ (exists ext, vs_colours s' = vs_colours s ++ ext) /\ length ms = length l /\
  (forall ext n w sensed evals m e, nth_error l n = Some (w, sensed, evals) -> nth_error ms n = Some (m, e) ->
    Forall (coloured o (fun i => index i (vs_colours s' ++ ext))) m /\ picture o dt w sensed evals m e) /\
  (forall S : N -> Prop, (forall i, appears l i -> S i) -> NoDup (map fst (vs_colours s)) /\ (forall j, In j (map fst (vs_colours s)) -> S j) ->
    NoDup (map fst (vs_colours s')) /\ (forall j, In j (map fst (vs_colours s')) -> S j)).
Proof.
  induction l as [|[[w sensed] evals] l IH]; intros s s' ms W E; cbn [draw_all] in E.
  - inversion E; subst. split; auto. split; [exists []; now rewrite app_nil_r|]. split; auto. split; [intros ext [|n]; discriminate|auto].
  - destruct (draw_world c ratio o dt w sensed evals s) as [[s1 m1] e1] eqn:D. destruct (draw_all c ratio o dt l s1) as [s2 ms2] eqn:A.
    destruct (draw_world_ok _ _ _ _ _ _ _ _ _ _ _ W D) as (W1 & (x1 & X1) & C1 & P1).
    destruct (IH _ _ _ W1 A) as (W2 & (x2 & X2) & L2 & Q2 & I2). inversion E; subst. clear E IH.
    split; auto. split; [exists (x1 ++ x2); rewrite X2, X1; now rewrite app_assoc|]. split; [cbn; lia|]. split.
    + intros ext [|n] w' sensed' evals' m e N1 N2; cbn [nth_error] in *; [|eauto]. inversion N1; inversion N2; subst.
      split; auto. rewrite X2, <- app_assoc. apply C1.
    + intros S Hs H. apply I2.
      * intros i (w' & se & evl & I & X). apply Hs. exists w', se, evl. split; [now right|auto].
      * eapply draw_world_ids; [exact D| |exact H]. intros i X. apply Hs. exists w, sensed, evals. split; [now left|auto].
Qed.

(* a fresh viewer, any sequence of pictures: each shows what it should, with colours by the order in which agents were
   first coloured *)
Theorem C104_pictures c ratio o dt l v0 s' ms : draw_all c ratio o dt l (mkVS v0 []) = (s', ms) ->
  length ms = length l /\
  exists rank : N -> option nat,
    (forall i j k, rank i = Some k -> rank j = Some k -> i = j) /\
    (forall all i k, (forall j, appears l j -> In j all) -> rank i = Some k -> k < length all) /\
    forall n w sensed evals m e, nth_error l n = Some (w, sensed, evals) -> nth_error ms n = Some (m, e) ->
      Forall (coloured o rank) m /\ picture o dt w sensed evals m e.
Proof.
  intros E. assert (W0 : wf (vs_colours (mkVS v0 []))) by (intros [|n] i k X; discriminate).
  destruct (draw_all_ok _ _ _ _ _ _ _ _ W0 E) as (W & _ & L & P & I). split; auto.
  exists (fun i => index i (vs_colours s')). split; [|split].
  - intros i j k. apply index_inj.
  - intros all i k Ha X. apply index_lt in X.
    destruct (I (appears l)) as (ND & Hs); auto; [cbn [vs_colours]; split; [constructor|intros j []]|].
    assert (Inc : incl (map fst (vs_colours s')) all) by (intros j J; auto). pose proof (NoDup_incl_length ND Inc) as Le.
    rewrite map_length in Le. lia.
  - intros n w sensed evals m e N1 N2. specialize (P [] n w sensed evals m e N1 N2). now rewrite app_nil_r in P.
Qed.
(* the view of a picture is computed from the world it shows, for the evaluated agents it takes into account (C103) *)
Theorem C104_view_of_a_picture c ratio o dt w sensed evals s s' m e : draw_world c ratio o dt w sensed evals s = (s', m, e) ->
  exists ev, effective w evals ev /\
    ((forall i r, ev = Some (i :: r) -> sensed i = None) /\ vs_view s' = update_view c ratio w ev (vs_view s) \/
     exists i r sw, ev = Some (i :: r) /\ sensed i = Some sw /\ vs_view s' = update_view c ratio sw ev (vs_view s)).
Proof.
  assert (Im : forall w ev s s' m e, draw_world_impl c ratio o dt w ev s = (s', m, e) -> vs_view s' = update_view c ratio w ev (vs_view s)).
  { clear. intros w ev s s' m e E. unfold draw_world_impl in E. cbv zeta in E.
    match type of E with match ?x with _ => _ end = _ => destruct x end; [inversion E; reflexivity|].
    destruct (draw_agents o (vw_valid w) ev (vw_agents w) (vs_colours s)) as [ma cm]. inversion E; reflexivity. }
  unfold draw_world. set (ev := match evals with Some (i :: r) => if has_id i (agent_ids w) then evals else None | _ => evals end).
  assert (Ef : effective w evals ev).
  { unfold effective, ev. destruct evals as [[|i r]|]; try (right; split; [intros; discriminate|reflexivity]).
    destruct (has_id i (agent_ids w)) eqn:H.
    - right. split; auto. intros j q E. inversion E; subst. apply in_ids. now apply has_id_iff.
    - left. exists i, r. split; auto. split; auto. intros X. apply in_ids, has_id_iff in X. congruence. }
  clearbody ev. cbv zeta. intros E. exists ev. split; auto.
  destruct (match ev with Some (i :: _) => sensed i | _ => None end) as [sw|] eqn:Se.
  - destruct ev as [[|i r]|]; try discriminate. destruct (draw_outlines o (Some (i :: r)) (vw_agents w) (vs_colours s)) as [m1 cm].
    destruct (draw_world_impl c ratio o dt sw (Some (i :: r)) (mkVS (vs_view s) cm)) as [[s2 m2] e2] eqn:I. inversion E; subst.
    right. exists i, r, sw. split; auto. split; auto. rewrite (Im _ _ _ _ _ _ I). reflexivity.
  - left. split; [intros i r ->; exact Se|]. exact (Im _ _ _ _ _ _ E).
Qed.
(* an agent that is not evaluated has the same colour in all pictures *)
Theorem C104_colours_are_kept c ratio o dt l v0 s' ms p1 p2 m1 e1 m2 e2 i l1 f1 h1 l2 f2 h2 :
  draw_all c ratio o dt l (mkVS v0 []) = (s', ms) ->
  nth_error ms p1 = Some (m1, e1) -> nth_error ms p2 = Some (m2, e2) ->
  In (AgentBody i l1 f1 false h1 true) m1 -> In (AgentBody i l2 f2 false h2 true) m2 -> l1 = l2 /\ f1 = f2.
Proof.
  intros E N1 N2 I1 I2. destruct (C104_pictures _ _ _ _ _ _ _ _ E) as (L & rank & _ & _ & P).
  assert (G : forall p m e, nth_error ms p = Some (m, e) -> Forall (coloured o rank) m).
  { intros p m e N. destruct (nth_error l p) as [[[w se] ev]|] eqn:X.
    - now apply (P p w se ev m e).
    - apply nth_error_None in X. assert (nth_error ms p <> None) by congruence. apply nth_error_Some in H. lia. }
  pose proof (proj1 (Forall_forall _ _) (G _ _ _ N1) _ I1) as A. pose proof (proj1 (Forall_forall _ _) (G _ _ _ N2) _ I2) as B.
  cbn [coloured] in A, B. destruct A as (fa & A & ->), B as (fb & B & ->).
  destruct A as [(X & _)|[(_ & U & -> & ->)|(_ & U & k & R & -> & ->)]]; [discriminate| |];
    destruct B as [(Y & _)|[(_ & U' & -> & ->)|(_ & U' & k' & R' & -> & ->)]]; try discriminate; try congruence; auto.
  assert (k' = k) by congruence. subst. auto.
Qed.
(* different agents have different colours as long as no more than 18 agents were seen *)
Theorem C104_up_to_18_agents_are_told_apart c ratio o dt l v0 s' ms all p1 p2 m1 e1 m2 e2 i j l1 f1 h1 l2 f2 h2 :
  draw_all c ratio o dt l (mkVS v0 []) = (s', ms) -> use_colormap o = true ->
  (forall k, appears l k -> In k all) -> length all <= 18 -> i <> j ->
  nth_error ms p1 = Some (m1, e1) -> nth_error ms p2 = Some (m2, e2) ->
  In (AgentBody i l1 f1 false h1 true) m1 -> In (AgentBody j l2 f2 false h2 true) m2 -> f1 <> f2.
Proof.
  intros E U Ha L18 Ne N1 N2 I1 I2. destruct (C104_pictures _ _ _ _ _ _ _ _ E) as (L & rank & Inj & Bd & P).
  assert (G : forall p m e, nth_error ms p = Some (m, e) -> Forall (coloured o rank) m).
  { intros p m e N. destruct (nth_error l p) as [[[w se] ev]|] eqn:X.
    - now apply (P p w se ev m e).
    - apply nth_error_None in X. assert (nth_error ms p <> None) by congruence. apply nth_error_Some in H. lia. }
  pose proof (proj1 (Forall_forall _ _) (G _ _ _ N1) _ I1) as A. pose proof (proj1 (Forall_forall _ _) (G _ _ _ N2) _ I2) as B.
  cbn [coloured] in A, B. destruct A as (fa & A & ->), B as (fb & B & ->).
  destruct A as [(X & _)|[(_ & U1 & _)|(_ & _ & k & R & -> & _)]]; [discriminate|congruence|].
  destruct B as [(X & _)|[(_ & U1 & _)|(_ & _ & k' & R' & -> & _)]]; [discriminate|congruence|].
  pose proof (Bd all i k Ha R). pose proof (Bd all j k' Ha R'). unfold colour_of_rank. intros X.
  assert (Y : Nat.min (k mod 20) 17 = Nat.min (k' mod 20) 17) by (remember (Nat.min (k mod 20) 17); remember (Nat.min (k' mod 20) 17); congruence).
  clear X. rewrite !Nat.mod_small in Y by lia. assert (k = k') by lia. subst. apply Ne. eapply Inj; eauto.
Qed.

(* --- examples --- *)
Definition toy_o (invalid ego : bool) : voptions := mkVO true true invalid true false true false ego.
Definition toy_seq : list (vworld * (N -> option vworld) * option (list N)) :=
  [(toy_w, fun _ => None, Some [9%N]); (toy_w, fun _ => None, None); (toy_w, fun _ => Some (mkVW [(9%N, mkVA (1, 2) true)] [9%N] ((0, 0), (1, 1)))%Q, Some [9%N])].
Example C104_nonvacuous :
  snd (draw_all (toy_cam NoFollow true true false) 1 (toy_o false false) true toy_seq (mkVS toy_old [])) =
  [([GoalOf 9; HistoryOf 0 OtherLine White; AgentBody 0 OtherLine (Palette 0) false false true;
     HistoryOf 9 EvalLine White; AgentBody 9 EvalLine EvalFace true false true], None);
   ([HistoryOf 0 OtherLine White; AgentBody 0 OtherLine (Palette 0) false false true;
     HistoryOf 9 OtherLine White; AgentBody 9 OtherLine (Palette 2) false false true], None);
   ([AgentBody 0 OtherLine White false false false; AgentBody 1 OtherLine White false false false; AgentBody 9 EvalLine White true false false;
     GoalOf 9; HistoryOf 9 EvalLine White; AgentBody 9 EvalLine EvalFace true false true], None)].
Proof. vm_compute. reflexivity. Qed.
Example C104_nonvacuous_few_agents : forall k, appears toy_seq k -> In k [0%N; 1%N; 9%N].
Proof.
  intros k (w & se & ev & I & X). cbn in I. destruct I as [I|[I|[I|[]]]]; inversion I; subst; clear I;
    destruct X as [(a & X)|(j & sw & E & (a & X))]; try discriminate; cbn in X.
  1, 2, 3: destruct X as [X|[X|[X|[]]]]; inversion X; subst; cbn; auto.
  inversion E; subst. cbn in X. destruct X as [X|[]]. inversion X; subst. cbn. auto.
Qed.
(* a palette of 20 colours tells 20 agents apart: false for 19 *)
Definition many (n : nat) : vworld :=
  let l := map N.of_nat (seq 0 n) in mkVW (map (fun i => (i, mkVA (0, 0)%Q false)) l) l ((0, 0), (1, 1))%Q.
Theorem C104_19_agents_are_told_apart_refuted :
  exists m e i j l1 l2 f h, snd (draw_all (toy_cam NoFollow true true false) 1 (toy_o false false) true [(many 19, fun _ => None, None)] (mkVS toy_old [])) = [(m, e)] /\
    i <> j /\ In (AgentBody i l1 f false h true) m /\ In (AgentBody j l2 f false h true) m.
Proof.
  do 2 eexists. exists 17%N, 18%N. do 4 eexists. split; [vm_compute; reflexivity|]. split; [discriminate|].
  split.
  - do 35 apply in_cons. apply in_eq.
  - do 37 apply in_cons. apply in_eq.
Qed.
(* every drawing option works without an evaluated agent: false *)
Theorem C104_debug_drawing_without_evaluated_agent_refuted :
  snd (draw_world (toy_cam NoFollow true true false) 1 (toy_o false true) true toy_w (fun _ => None) (Some [5%N]) (mkVS toy_old [])) = Some VTypeError.
Proof. vm_compute. reflexivity. Qed.

Print Assumptions C104_pictures.
Print Assumptions C104_view_of_a_picture.
Print Assumptions C104_colours_are_kept.
Print Assumptions C104_up_to_18_agents_are_told_apart.
Print Assumptions C104_19_agents_are_told_apart_refuted.
