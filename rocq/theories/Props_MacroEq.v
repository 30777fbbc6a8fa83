(** C124: equality of macro action behaviors. *)
From Coq Require Import Reals List Bool Arith Lra Lia Relations.
From Verif Require Import Base_Real Base_Geom Base_Ext Model_Line Model_Frenet Model_Dynamic Model_IDM Model_Primitives Model_MacroEq
  Toy_Road Props_Primitives Props_Macro.
Import ListNotations.
Local Open Scope R_scope.

Lemma Reqb_iff a b : Reqb a b = true <-> a = b.
Proof. unfold Reqb. destruct (Req_EM_T a b); split; intros; try assumption; try reflexivity; try contradiction; discriminate. Qed.

(** What "the same primitive" means to a user: the same class, the same target acceleration if it has one, and equal
    lane tracking and IDM parameters. *)
Definition accel (k : pkind) : option R :=
  match k with StayLane a _ | ChangeLeft a _ _ | ChangeRight a _ _ => Some a | GapKeeping => None end.
Definition same_class (k l : pkind) : Prop :=
  match k, l with
  | StayLane _ _, StayLane _ _ | ChangeLeft _ _ _, ChangeLeft _ _ _ | ChangeRight _ _ _, ChangeRight _ _ _
  | GapKeeping, GapKeeping => True
  | _, _ => False
  end.
Definition same_prim {T} (params_eq : T -> T -> bool) (p q : eprim T) : Prop :=
  same_class (p_kind (fst p)) (p_kind (fst q)) /\ accel (p_kind (fst p)) = accel (p_kind (fst q)) /\
  params_eq (ch_lane (snd p)) (ch_lane (snd q)) = true /\ params_eq (ch_classic (snd p)) (ch_classic (snd q)) = true.

(** A behavior: every primitive has parameters. *)
Definition wf {T} (b : ebehavior T) : Prop := length (eb_pars b) = length (ma_prims (eb_macro b)).

Lemma prim_eq_iff {T} (pe : T -> T -> bool) p q : prim_eq pe p q = true <-> same_prim pe p q.
Proof.
  unfold prim_eq, is_equal, lane_tracking_eq, same_prim.
  destruct (p_kind (fst p)), (p_kind (fst q)); cbn [type_id Nat.eqb same_class accel andb];
    rewrite ?andb_true_iff, ?Reqb_iff; split; intros H; try discriminate; try tauto;
    try (destruct H as (H1 & H2 & H3); repeat split; try assumption; try (rewrite H1; reflexivity); try (injection H2; intros; assumption); try apply H3; fail).
  all: try (destruct H as (H1 & H2); split; [exact I|split; [congruence|exact H2]]).
  all: try (destruct H as (H0 & H1 & H2); split; [congruence|exact H2]).
Qed.
Lemma eq_loop_iff {T} (pe : T -> T -> bool) l : forall r, length l = length r ->
  (eq_loop pe l r = true <-> forall i p q, nth_error l i = Some p -> nth_error r i = Some q -> same_prim pe p q).
Proof.
  induction l as [|x l IH]; intros [|y r] L; try discriminate L; cbn [eq_loop].
  - split; [intros _ [|i] p q; discriminate|reflexivity].
  - injection L as L. specialize (IH r L). unfold prim_neq. pose proof (prim_eq_iff pe x y) as X.
    destruct (prim_eq pe x y); cbn [negb].
    + rewrite IH. split; intros H.
      * intros [|i] p q Np Nq; cbn in Np, Nq; [injection Np as <-; injection Nq as <-; apply X; reflexivity|exact (H i p q Np Nq)].
      * intros i p q. exact (H (S i) p q).
    + split; [discriminate|]. intros H. assert (Z : false = true) by (apply X; apply (H 0%nat x y); reflexivity). discriminate Z.
Qed.
Lemma combine_len {T} (b : ebehavior T) : wf b -> length (eprims b) = length (ma_prims (eb_macro b)).
Proof. unfold wf, eprims, eprim. intros E. rewrite combine_length, E. apply Nat.min_id. Qed.
Lemma nth_combine {A B} (l : list A) : forall (r : list B) i a b,
  nth_error (combine l r) i = Some (a, b) <-> nth_error l i = Some a /\ nth_error r i = Some b.
Proof.
  induction l as [|x l IH]; intros [|y r] [|i] a b; cbn; try apply IH; split; intros H; try discriminate;
    try (destruct H; discriminate).
  - injection H as -> ->. auto.
  - destruct H as (H1 & H2). congruence.
Qed.

(** Two behaviors compare equal exactly when the other one is a macro action behavior too, both check validity or both do
    not, and they have the same number of primitives, pairwise the same. *)
Theorem C124_equal_iff : forall {T} (params_eq : T -> T -> bool) (b : ebehavior T) other, wf b -> (forall o, other = Some o -> wf o) ->
  behavior_eq params_eq b other = true <->
  exists o, other = Some o /\ ma_check (eb_macro b) = ma_check (eb_macro o) /\
    length (ma_prims (eb_macro b)) = length (ma_prims (eb_macro o)) /\
    forall i p q c d, nth_error (ma_prims (eb_macro b)) i = Some p -> nth_error (ma_prims (eb_macro o)) i = Some q ->
      nth_error (eb_pars b) i = Some c -> nth_error (eb_pars o) i = Some d -> same_prim params_eq (p, c) (q, d).
Proof.
  intros T pe b other Wb Wo. destruct other as [o|]; cbn [behavior_eq].
  2:{ split; [discriminate|]. intros (o & E & _). discriminate E. }
  specialize (Wo o eq_refl). rewrite (combine_len b Wb), (combine_len o Wo).
  destruct (eqb (ma_check (eb_macro b)) (ma_check (eb_macro o))) eqn:C; cbn [negb].
  2:{ split; [discriminate|]. intros (o' & E & E2 & _). injection E as <-. apply eqb_false_iff in C. contradiction. }
  apply eqb_prop in C. destruct (Nat.eqb_spec (length (ma_prims (eb_macro b))) (length (ma_prims (eb_macro o)))) as [L|L]; cbn [negb].
  2:{ split; [discriminate|]. intros (o' & E & _ & E2 & _). injection E as <-. contradiction. }
  rewrite eq_loop_iff by (rewrite (combine_len b Wb), (combine_len o Wo); exact L). split.
  - intros H. exists o. split; [reflexivity|]. split; [exact C|]. split; [exact L|]. intros i p q c d Np Nq Nc Nd.
    apply (H i (p, c) (q, d)); apply nth_combine; auto.
  - intros (o' & E & _ & _ & H) i (p, c) (q, d) N1 N2. injection E as <-. apply nth_combine in N1, N2.
    apply (H i p q c d); tauto.
Qed.
Print Assumptions C124_equal_iff.

(** Equality is an equivalence whenever the equality of parameter sets is. *)
Lemma same_prim_refl {T} (pe : T -> T -> bool) : (forall t, pe t t = true) -> forall p, same_prim pe p p.
Proof. intros R p. unfold same_prim. split; [|split; [reflexivity|split; apply R]]. destruct (p_kind (fst p)); exact I. Qed.
Lemma same_prim_sym {T} (pe : T -> T -> bool) : (forall t u, pe t u = true -> pe u t = true) -> forall p q, same_prim pe p q -> same_prim pe q p.
Proof.
  intros S p q (H1 & H2 & H3 & H4). split; [|split; [symmetry; exact H2|split; apply S; assumption]].
  destruct (p_kind (fst p)), (p_kind (fst q)); exact H1.
Qed.
Lemma same_prim_trans {T} (pe : T -> T -> bool) : (forall t u v, pe t u = true -> pe u v = true -> pe t v = true) ->
  forall p q r, same_prim pe p q -> same_prim pe q r -> same_prim pe p r.
Proof.
  intros S p q r (H1 & H2 & H3 & H4) (G1 & G2 & G3 & G4).
  split; [|split; [congruence|split; [exact (S _ _ _ H3 G3)|exact (S _ _ _ H4 G4)]]].
  destruct (p_kind (fst p)), (p_kind (fst q)); try contradiction; destruct (p_kind (fst r)); exact G1.
Qed.
Lemma nth_some_len {A B} (l : list A) (r : list B) i a : length l = length r -> nth_error l i = Some a -> exists b, nth_error r i = Some b.
Proof.
  intros L N. destruct (nth_error r i) as [b|] eqn:E; [eauto|]. apply nth_error_None in E.
  assert (i < length l)%nat by (apply nth_error_Some; rewrite N; discriminate). lia.
Qed.
Theorem C124_equivalence : forall {T} (params_eq : T -> T -> bool),
  (forall t, params_eq t t = true) -> (forall t u, params_eq t u = true -> params_eq u t = true) ->
  (forall t u v, params_eq t u = true -> params_eq u v = true -> params_eq t v = true) ->
  (forall b, wf b -> behavior_eq params_eq b (Some b) = true) /\
  (forall b o, wf b -> wf o -> behavior_eq params_eq b (Some o) = true -> behavior_eq params_eq o (Some b) = true) /\
  (forall a b c, wf a -> wf b -> wf c -> behavior_eq params_eq a (Some b) = true -> behavior_eq params_eq b (Some c) = true ->
     behavior_eq params_eq a (Some c) = true).
Proof.
  intros T pe R S Tr. assert (W : forall o : ebehavior T, wf o -> forall o', Some o = Some o' -> wf o') by (intros o H o' E; injection E as <-; exact H).
  split; [|split].
  - intros b Wb. apply (C124_equal_iff pe b (Some b) Wb (W b Wb)). exists b. split; [reflexivity|]. split; [reflexivity|]. split; [reflexivity|].
    intros i p q c d Np Nq Nc Nd. rewrite Np in Nq. rewrite Nc in Nd. injection Nq as <-. injection Nd as <-. apply same_prim_refl, R.
  - intros b o Wb Wo H. apply (C124_equal_iff pe b (Some o) Wb (W o Wo)) in H. destruct H as (o' & E & H1 & H2 & H3). injection E as <-.
    apply (C124_equal_iff pe o (Some b) Wo (W b Wb)). exists b. split; [reflexivity|]. split; [symmetry; exact H1|]. split; [symmetry; exact H2|].
    intros i p q c d Np Nq Nc Nd. apply same_prim_sym; [exact S|]. exact (H3 i q p d c Nq Np Nd Nc).
  - intros a b c Wa Wb Wc H G. apply (C124_equal_iff pe a (Some b) Wa (W b Wb)) in H. apply (C124_equal_iff pe b (Some c) Wb (W c Wc)) in G.
    destruct H as (b' & E & H1 & H2 & H3). injection E as <-. destruct G as (c' & E & G1 & G2 & G3). injection E as <-.
    apply (C124_equal_iff pe a (Some c) Wa (W c Wc)). exists c. split; [reflexivity|]. split; [congruence|]. split; [congruence|].
    intros i p r x z Np Nr Nx Nz. destruct (nth_some_len _ (ma_prims (eb_macro b)) _ _ H2 Np) as (q & Nq).
    destruct (nth_some_len _ (eb_pars b) _ _ (eq_sym Wb) Nq) as (y & Ny).
    apply (same_prim_trans pe Tr _ (q, y)); [exact (H3 i p q x y Np Nq Nx Ny)|exact (G3 i q r y z Nq Nr Ny Nz)].
Qed.
Print Assumptions C124_equivalence.

(** Planning and choosing actions do not change what a behavior is equal to. *)
Lemma prim_plan_kind p w dt c p' tr : prim_plan p w dt c = Some (p', tr) -> p_kind p' = p_kind p.
Proof.
  unfold prim_plan. intros H.
  assert (A : forall a r, const_acc_plan p a r w dt c = Some (p', tr) -> p_kind p' = p_kind p).
  { clear H. intros a r H. unfold const_acc_plan in H. destruct c as [c|]; [|injection H as <- _; reflexivity].
    unfold bind in H. repeat (match type of H with (match ?e with Some _ => _ | None => None end) = _ => destruct e; [|discriminate] end).
    injection H as <- _. reflexivity. }
  destruct (p_kind p) eqn:K; [exact (A _ _ H)|exact (A _ _ H)|exact (A _ _ H)|]. rewrite <- K.
  unfold gap_plan, bind in H. destruct (pw_model w); [|discriminate].
  repeat (match type of H with (match ?e with Some _ => _ | None => None end) = _ => destruct e; [|discriminate] end).
  injection H as <- _. reflexivity.
Qed.
Lemma replace_nth {A} (l : list A) : forall i x y, nth_error l i = Some y -> forall {B} (f : A -> B), f x = f y -> map f (replace l i x) = map f l.
Proof.
  induction l as [|z l IH]; intros [|i] x y N B f E; cbn in N; try discriminate.
  - injection N as ->. unfold replace. cbn. congruence.
  - unfold replace in *. cbn [firstn skipn app map]. f_equal. exact (IH i x y N B f E).
Qed.
Lemma step_same {T} (b b' : ebehavior T) : eb_step b b' ->
  map p_kind (ma_prims (eb_macro b')) = map p_kind (ma_prims (eb_macro b)) /\ ma_check (eb_macro b') = ma_check (eb_macro b) /\ eb_pars b' = eb_pars b.
Proof.
  intros S. destruct S as [b w dt s' tr H|b a]; [|repeat split]. cbn [eb_macro eb_pars].
  unfold ma_plan, bind in H. destruct (ma_corridors (eb_macro b) w) as [[c adj]|]; [|discriminate].
  destruct (if ma_check (eb_macro b) then _ else _) as [valid|]; [|discriminate].
  destruct (ma_active (eb_macro b)) as [i| | |]; try discriminate.
  destruct (if ma_check (eb_macro b) then _ else _) as [j|]; [|discriminate].
  destruct (nth_error (ma_prims (eb_macro b)) j) as [p|] eqn:N; [|discriminate].
  destruct (prim_plan p w dt (prim_select p w adj)) as [[p' tr']|] eqn:P; [|discriminate].
  cbn [fst snd] in H. destruct (nth_error (replace (ma_prims (eb_macro b)) j p') i) as [q|]; [|discriminate].
  injection H as <- _. cbn [ma_prims ma_check]. split; [|split; reflexivity].
  exact (replace_nth _ _ _ _ N p_kind (prim_plan_kind _ _ _ _ _ _ P)).
Qed.
Theorem C124_history_independent : forall {T} (params_eq : T -> T -> bool) (b b' o o' : ebehavior T),
  clos_refl_trans_1n _ eb_step b b' -> clos_refl_trans_1n _ eb_step o o' -> wf b -> wf o ->
  behavior_eq params_eq b' (Some o') = behavior_eq params_eq b (Some o).
Proof.
  intros T pe b b' o o' Hb Ho Wb Wo.
  assert (X : forall x x' : ebehavior T, clos_refl_trans_1n _ eb_step x x' ->
    map p_kind (ma_prims (eb_macro x')) = map p_kind (ma_prims (eb_macro x)) /\ ma_check (eb_macro x') = ma_check (eb_macro x) /\ eb_pars x' = eb_pars x).
  { intros x x' H. induction H as [|x y z S _ IH]; [repeat split|]. destruct IH as (I1 & I2 & I3). destruct (step_same _ _ S) as (J1 & J2 & J3).
    repeat split; congruence. }
  destruct (X _ _ Hb) as (B1 & B2 & B3). destruct (X _ _ Ho) as (O1 & O2 & O3). clear X.
  assert (L : forall x x' : ebehavior T, map p_kind (ma_prims (eb_macro x')) = map p_kind (ma_prims (eb_macro x)) -> length (ma_prims (eb_macro x')) = length (ma_prims (eb_macro x)))
    by (intros x x' E; apply (f_equal (@length _)) in E; rewrite !map_length in E; exact E).
  assert (N : forall x x' : ebehavior T, map p_kind (ma_prims (eb_macro x')) = map p_kind (ma_prims (eb_macro x)) -> forall i p, nth_error (ma_prims (eb_macro x')) i = Some p ->
    exists p0, nth_error (ma_prims (eb_macro x)) i = Some p0 /\ p_kind p0 = p_kind p).
  { intros x x' E i p H. apply (map_nth_error p_kind) in H. rewrite E, nth_error_map in H.
    destruct (nth_error (ma_prims (eb_macro x)) i) as [p0|]; [|discriminate]. injection H as H. eauto. }
  assert (D : forall x x' y y' : ebehavior T, wf x -> wf y -> wf x' -> wf y' ->
     map p_kind (ma_prims (eb_macro x')) = map p_kind (ma_prims (eb_macro x)) -> ma_check (eb_macro x') = ma_check (eb_macro x) -> eb_pars x' = eb_pars x ->
     map p_kind (ma_prims (eb_macro y')) = map p_kind (ma_prims (eb_macro y)) -> ma_check (eb_macro y') = ma_check (eb_macro y) -> eb_pars y' = eb_pars y ->
     behavior_eq pe x (Some y) = true -> behavior_eq pe x' (Some y') = true).
  { intros x x' y y' Wx Wy Wx' Wy' E1 E2 E3 F1 F2 F3 H.
    apply (C124_equal_iff pe x (Some y) Wx) in H; [|intros z E; injection E as <-; exact Wy].
    apply (C124_equal_iff pe x' (Some y') Wx'); [intros z E; injection E as <-; exact Wy'|].
    destruct H as (z & E & H1 & H2 & H3). injection E as <-. exists y'. split; [reflexivity|]. split; [congruence|].
    split; [rewrite (L _ _ E1), (L _ _ F1); exact H2|]. intros i p q c d Np Nq Nc Nd.
    destruct (N _ _ E1 _ _ Np) as (p0 & Np0 & K1). destruct (N _ _ F1 _ _ Nq) as (q0 & Nq0 & K2).
    rewrite E3 in Nc. rewrite F3 in Nd. specialize (H3 i p0 q0 c d Np0 Nq0 Nc Nd).
    unfold same_prim in *. cbn [fst snd] in *. rewrite <- K1, <- K2. exact H3. }
  assert (Wb' : wf b') by (unfold wf in *; rewrite B3, (L _ _ B1); exact Wb).
  assert (Wo' : wf o') by (unfold wf in *; rewrite O3, (L _ _ O1); exact Wo).
  destruct (behavior_eq pe b (Some o)) eqn:E.
  - exact (D b b' o o' Wb Wo Wb' Wo' B1 B2 B3 O1 O2 O3 E).
  - destruct (behavior_eq pe b' (Some o')) eqn:E'; [|reflexivity].
    rewrite <- E. symmetry. apply (D b' b o' o); auto.
Qed.
Print Assumptions C124_history_independent.

(** Equal behaviors need not act alike: the minimum length of the target lane, the restriction at the end of a lane and
    everything outside the two parameter sets are not compared. Here two equal behaviors disagree on whether a lane
    change is possible. *)
Theorem C124_equal_not_interchangeable : forall {T} (params_eq : T -> T -> bool), (forall t, params_eq t t = true) ->
  forall (p q : prim) a r ml ml' (c : children T) check, p_kind p = ChangeLeft a r ml -> p_kind q = ChangeLeft a r ml' ->
  behavior_eq params_eq (mkEB (ma_new check [p]) [c]) (Some (mkEB (ma_new check [q]) [c])) = true /\
  (forall w adj lane pos near s, a_left adj = Some lane -> pw_pos w = Some pos ->
     get_nearest_point (co_center lane) pos = Some near -> get_nearest_s (co_center lane) near = Some s ->
     ml <= line_length (co_center lane) - s < ml' -> prim_pre p w adj = Some true /\ prim_pre q w adj = Some false).
Proof.
  intros T pe R p q a r ml ml' c check Kp Kq. split.
  - apply C124_equal_iff; [reflexivity|intros o E; injection E as <-; reflexivity|].
    eexists. split; [reflexivity|]. split; [reflexivity|]. split; [reflexivity|].
    intros i p' q' c' d' Np Nq Nc Nd. destruct i as [|[|i]]; cbn in Np, Nq, Nc, Nd; try discriminate.
    injection Np as <-. injection Nq as <-. injection Nc as <-. injection Nd as <-.
    unfold same_prim. cbn [fst snd]. rewrite Kp, Kq. cbn. repeat split; apply R.
  - intros w adj lane pos near s HL HP HN HS (H1 & H2). unfold prim_pre, side_long_enough, length_until_end. rewrite Kp, Kq, HL, HP.
    cbn [bind]. rewrite HN. cbn [bind]. rewrite HS. cbn [bind].
    split; f_equal; unfold Rleb; destruct (Rle_dec _ _); try reflexivity; lra.
Qed.
Print Assumptions C124_equal_not_interchangeable.

(** Two behaviors that have planned and still compare as they did when they were new. *)
Example C124_history_independent_nonvacuous : exists (b b' : ebehavior nat),
  clos_refl_trans_1n _ eb_step b b' /\ wf b /\ eb_macro b' <> eb_macro b /\ ma_target (eb_macro b') = Some (ex_lane 0) /\
  behavior_eq Nat.eqb b' (Some b) = true /\
  behavior_eq Nat.eqb b (Some (mkEB (eb_macro b) [mkCh 1 1; mkCh 3 2]%nat)) = false /\
  behavior_eq Nat.eqb b (Some (mkEB (ma_new true (ma_prims (eb_macro b))) (eb_pars b))) = false /\
  behavior_eq Nat.eqb b None = false.
Proof.
  set (ps := [ex_prim (StayLane 0 false); ex_prim (StayLane 1 false)]).
  set (b := mkEB (ma_new false ps) [mkCh 1 1; mkCh 2 2]%nat).
  destruct (ex_ma_stay ps [] false None (DiscreteAction 1) (DiscreteAction 0) [] 1 1 1 10 no_sides) as (s' & tr & p' & s & q & E & PR & LS & Q & LA & TG);
    auto; try discriminate.
  assert (W : wf b) by reflexivity.
  assert (ST : clos_refl_trans_1n _ eb_step b (mkEB s' (eb_pars b))).
  { eapply Relation_Operators.rt1n_trans; [exact (eb_act b (DiscreteAction 1))|].
    eapply Relation_Operators.rt1n_trans; [|apply Relation_Operators.rt1n_refl].
    exact (eb_plan (mkEB (ma_act (ma_new false ps) (DiscreteAction 1)) (eb_pars b)) _ _ s' tr E). }
  destruct (C124_equivalence Nat.eqb Nat.eqb_refl) as (RF & _ & _).
  { intros t u H. apply Nat.eqb_eq in H. subst. apply Nat.eqb_refl. }
  { intros t u v H G. apply Nat.eqb_eq in H, G. subst. apply Nat.eqb_refl. }
  exists b, (mkEB s' (eb_pars b)). split; [exact ST|]. split; [exact W|]. 
  assert (ET : ma_target s' = Some (ex_lane 0)) by exact TG.
  split. { intros X. apply (f_equal ma_target) in X. cbn [eb_macro] in X. rewrite ET in X. discriminate X. }
  split; [exact ET|]. split.
  { rewrite (C124_history_independent Nat.eqb b _ b b ST (Relation_Operators.rt1n_refl _ _ _) W W). exact (RF b W). }
  split; [|split; reflexivity].
  destruct (behavior_eq Nat.eqb b _) eqn:X; [|reflexivity]. exfalso.
  apply (C124_equal_iff Nat.eqb b) in X; [|exact W|intros o Eo; injection Eo as <-; reflexivity].
  destruct X as (o & Eo & _ & _ & H). injection Eo as <-. specialize (H 1%nat _ _ _ _ eq_refl eq_refl eq_refl eq_refl).
  destruct H as (_ & _ & H & _). discriminate H.
Qed.

Example C124_equal_not_interchangeable_nonvacuous :
  let p := ex_prim (ChangeLeft 0 false 20) in let q := ex_prim (ChangeLeft 0 false 60) in
  let w := ex_world 10 no_sides in let adj := mkAdj (Some (ex_lane 0)) (Some (ex_lane 2)) None in
  behavior_eq Nat.eqb (mkEB (ma_new true [p]) [mkCh 1 1]%nat) (Some (mkEB (ma_new true [q]) [mkCh 1 1]%nat)) = true /\
  prim_pre p w adj = Some true /\ prim_pre q w adj = Some false.
Proof.
  intros p q w adj.
  destruct (C124_equal_not_interchangeable Nat.eqb Nat.eqb_refl p q 0 false 20 60 (mkCh 1 1)%nat true eq_refl eq_refl) as (H1 & H2).
  split; [exact H1|]. apply (H2 w adj (ex_lane 2) (50, 0) (50, 0) 50); try reflexivity.
  - cbn [co_center ex_lane]. unfold get_nearest_point, get_nearest_point_and_s. rewrite road_pts, road_ss. cbn.
    unfold nearest_on_segment. cbn.
    destruct (Reqb_spec (0 * 0 - 2 * 0 * 100 + 0 * 0 - 2 * 0 * 0 + 100 * 100 + 0 * 0) 0); [lra|].
    match goal with |- context [Rltb ?l 0] => replace l with (50 / 100) by field end.
    destruct (Rltb_spec (50 / 100) 0); [lra|]. destruct (Rltb_spec 1 (50 / 100)); [lra|]. cbn. f_equal. f_equal; field.
  - apply road_nearest. lra.
  - assert (line_length (co_center (ex_lane 2)) = 100) as ->; [|lra]. cbn [co_center ex_lane]. unfold line_length. rewrite road_pts. cbn [bg_length]. unfold dist. cbn [fst snd]. replace ((0 - 100) * (0 - 100) + (0 - 0) * (0 - 0)) with (100 * 100) by ring. replace ((100 - 0) * (100 - 0) + (0 - 0) * (0 - 0)) with (100 * 100) by ring. rewrite sqrt_square by lra. lra.
Qed.
