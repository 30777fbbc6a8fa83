(** C83, C85: configurable scenario generation and its conflict resolution. *)

From Coq Require Import String List Arith Lia Bool QArith ZArith Sorting.Sorted.
Import ListNotations.
From Verif Require Import Model_BenchRun Proof_BenchRun Model_Heap Model_Runtime Model_ScenGen Spec_ScenGen Proof_ScenGen Proof_Overlap.
Local Open Scope string_scope.
Local Open Scope nat_scope.
Local Open Scope list_scope.

Section C83.
Context {St Geo Beh Exe Dyn Goal Cor Par Obs Val E : Type}.
Notation source := (@source St Geo Beh Exe Dyn Goal Cor Par Val E).
Notation agent := (@agent St Geo Beh Exe Dyn Goal Cor Par).
Notation id_of := (@ag_id St Geo Beh Exe Dyn Goal Cor Par).

(** The agents are the sources' agents in order, numbered through; the k-th agent
    of a source is built from the k-th item of each of that source's lists; the
    evaluated agents are exactly the ones flagged as controlled. *)
Theorem C83_agents idx (srcs : list source) (obs : nat -> @call E Obs) e e' sc :
  create_single idx srcs obs e = (e', inl sc) ->
  exists outs, Forall2 (returned idx) srcs outs /\
    length (sc_agents sc) = offset outs (length outs) /\
    (forall i s o k, nth_error srcs i = Some s -> nth_error outs i = Some o -> k < length (o_states o) ->
       exists a, nth_error (sc_agents sc) (offset outs i + k) = Some a /\ ag_id a = offset outs i + k /\
         is_kth s o k a /\
         (In (offset outs i + k) (sc_eval sc) <-> nth_error (o_ctrl o) k = Some true)) /\
    StronglySorted lt (sc_eval sc) /\ (forall p, In p (sc_eval sc) -> p < length (sc_agents sc)) /\
    (exists e1 e2, obs idx e1 = (e2, inl (sc_obs sc))).
Proof. apply single_ok. Qed.

Theorem C83_ids idx (srcs : list source) (obs : nat -> @call E Obs) e e' sc :
  create_single idx srcs obs e = (e', inl sc) ->
  map id_of (sc_agents sc) = seq 0 (length (sc_agents sc)).
Proof. apply single_ids. Qed.

(** Lists of different length are refused with ValueError, and nothing else is. *)
Theorem C83_sizes (sts : list St) (gs : list Geo) (bs : list Beh) (es : list Exe) (ds : list Dyn)
    (gls : list Goal) cs (par : Par) (x : gexn) :
  (create_source_config_agents sts gs bs es ds gls cs par : gres (list agent)) = inr x <->
  x = ValueError /\ ~ (length gs = length sts /\ length bs = length sts /\ length es = length sts /\
                       length ds = length sts /\ length gls = length sts /\ length cs = length sts).
Proof.
  unfold create_source_config_agents. cbv zeta. destruct (_ && _) eqn:B.
  - rewrite !andb_true_iff, !Nat.eqb_eq in B. split; [discriminate|]. intros [_ N]. exfalso. apply N. intuition.
  - split.
    + intros H. injection H as <-. split; [reflexivity|]. intros (A1 & A2 & A3 & A4 & A5 & A6).
      rewrite A1, A2, A3, A4, A5, A6, Nat.eqb_refl in B. discriminate.
    + intros [-> _]. reflexivity.
Qed.

(** If no reader raises and all return one item per state, generation succeeds. *)
Theorem C83_succeeds (srcs : list source) (obs : nat -> @call E Obs) n e :
  Forall well_behaved srcs -> (forall i e, exists e' o, obs i e = (e', inl o)) ->
  exists e' l, create_scenarios n srcs obs e = (e', inl l).
Proof. intros W O. apply well_from; assumption. Qed.

(** num_scenarios scenarios, the i-th generated with scenario index i. *)
Theorem C83_scenarios n (srcs : list source) (obs : nat -> @call E Obs) e e' l :
  create_scenarios n srcs obs e = (e', inl l) ->
  length l = n /\ forall k sc, nth_error l k = Some sc -> exists e1 e2, create_single k srcs obs e1 = (e2, inl sc).
Proof. intros H. apply (create_from_ok srcs obs n 0 e e' l H). Qed.

(** A source without states contributes no agent and its other readers are not asked. *)
Theorem C83_empty_source idx (s : source) (srcs : list source) c gs kw e e1 :
  src_corridor s = inl c -> rd_states s idx c e = (e1, inl ([], gs, kw)) ->
  gbind (collect idx (s :: srcs)) (second_loop idx) e =
  gbind (collect idx srcs) (second_loop idx) e1.
Proof.
  intros Hc Hs. cbn [collect]. unfold gbind, glift, gret. rewrite Hc, Hs. cbn [fst snd].
  destruct (collect idx srcs e1) as [e2 [l|x]]; reflexivity.
Qed.

(** The keyword arguments of a reader: what the source's earlier readers have returned, the
    latest value of each name ([latest]: Spec_ScenGen.v). *)
Theorem C83_kwargs idx (s : source) c (sts : list St) (gs : list Geo) (kw : dct Val) e e' (r : list agent * list bool) :
  one_source idx s c sts gs kw e = (e', inl r) ->
  exists bs kb xs kx ds kd ks kk gl kg e1 e2 e3 e4 k1 k2 k3 k4,
    rd_beh s idx c sts kw e = (e1, inl (bs, kb)) /\ rd_exe s idx c sts k1 e1 = (e2, inl (xs, kx)) /\
    rd_dyn s idx c sts k2 e2 = (e3, inl (ds, kd)) /\ rd_ctrl s idx c sts k3 e3 = (e4, inl (ks, kk)) /\
    rd_goal s idx c sts ks k4 e4 = (e', inl (gl, kg)) /\ snd r = ks /\
    ((forall l, In l [kb; kx; kd; kk] -> NoDup (map fst l)) ->
     forall n, dget k1 n = latest [kw; kb] n /\ dget k2 n = latest [kw; kb; kx] n /\
      dget k3 n = latest [kw; kb; kx; kd] n /\ dget k4 n = latest [kw; kb; kx; kd; kk] n).
Proof.
  unfold one_source, gbind, glift, gret. intros H.
  destruct (rd_beh s idx c sts kw e) as [e1 [[bs kb]|x]] eqn:H1; [|discriminate]. cbv zeta in H. cbn [fst snd] in H.
  set (k1 := dupdate kw kb) in *. destruct (rd_exe s idx c sts k1 e1) as [e2 [[xs kx]|x]] eqn:H2; [|discriminate]. cbn [fst snd] in H.
  set (k2 := dupdate k1 kx) in *. destruct (rd_dyn s idx c sts k2 e2) as [e3 [[ds kd]|x]] eqn:H3; [|discriminate]. cbn [fst snd] in H.
  set (k3 := dupdate k2 kd) in *. destruct (rd_ctrl s idx c sts k3 e3) as [e4 [[ks kk]|x]] eqn:H4; [|discriminate]. cbn [fst snd] in H.
  set (k4 := dupdate k3 kk) in *. destruct (rd_goal s idx c sts ks k4 e4) as [e5 [[gl kg]|x]] eqn:H5; [|discriminate]. cbn [fst snd] in H.
  destruct (create_source_config_agents _ _ _ _ _ _ _ _); [|discriminate]. injection H as <- <-.
  exists bs, kb, xs, kx, ds, kd, ks, kk, gl, kg, e1, e2, e3, e4, k1, k2, k3, k4.
  split; [reflexivity|]. split; [exact H2|]. split; [exact H3|]. split; [exact H4|]. split; [exact H5|]. split; [reflexivity|].
  intros N n. unfold latest. cbn [fold_left].
  subst k1 k2 k3 k4. rewrite !dget_dupdate by (apply N; cbn; auto).
  destruct (dget kw n), (dget kb n), (dget kx n), (dget kd n), (dget kk n); auto.
Qed.

End C83.

(** get_next_scenario of a freshly constructed generator starts with the last scenario. *)
Theorem C83_first_scenario {D H M : Type} (pa : aval D H -> option (aval D H)) (pm : mval D -> option (mval D))
    (m m1 m2 : mem D H) (stored : list (scen M)) s1 i1 g1 s2 i2 g2 :
  get_next D H M pa pm m (mkGen M stored (cursor_after (length stored)) None) = (g1, Some (m1, s1, i1)) ->
  get_next D H M pa pm m1 g1 = (g2, Some (m2, s2, i2)) ->
  i1 = length stored - 1 /\ i2 = 0.
Proof.
  unfold get_next. cbn [g_stored g_idx g_iter]. intros H1 H2.
  destruct stored as [|s0 r].
  { cbn in H1. discriminate. }
  cbn [cursor_after length] in *. rewrite (proj2 (Nat.leb_gt (S (length r)) (length r)) (Nat.lt_succ_diag_r _)) in H1.
  destruct (get_scenario D H M pa pm m _ (Z.of_nat (length r))) as [[m0 s]|]; [|discriminate].
  injection H1 as <- <- <- <-. cbn [g_stored g_idx g_iter length] in H2.
  rewrite (proj2 (Nat.leb_le (S (length r)) (S (length r))) (Nat.le_refl _)) in H2.
  match type of H2 with (match ?g with _ => _ end) = _ => destruct g as [[m3 s3]|]; [|discriminate] end.
  injection H2 as <- <- <- <-. cbn. lia.
Qed.

(** Two sources of 2 and 1 agents with an empty one between them; the reader flags
    the second agent of the first source and the agent of the last. *)
Definition ex_source (n : nat) (fl : list bool) : @source nat nat nat nat nat nat unit nat nat nat :=
  mkSource "s" (inl tt)
    (fun _ _ e => (e + n, inl (seq e n, seq (10 + e) n, [])))
    (fun _ _ sts _ e => (S e, inl (map (Nat.add 20) sts, [])))
    (fun _ _ sts _ e => (e, inl (map (Nat.add 30) sts, [])))
    (fun _ _ sts _ e => (e, inl (map (Nat.add 40) sts, [])))
    (fun _ _ sts _ e => (e, inl (map (fun i => nth i fl false) (seq 0 (length sts)), [])))
    (fun _ _ sts _ _ e => (e, inl (map (Nat.add 50) sts, []))) 7.

Example C83_nonvacuous : exists e' sc,
  create_single 0 [ex_source 2 [false; true]; ex_source 0 []; ex_source 1 [true]] (fun _ e => (e, inl tt)) 0
    = (e', inl sc) /\
  map ag_id (sc_agents sc) = [0; 1; 2] /\ map ag_state (sc_agents sc) = [0; 1; 2] /\
  map ag_beh (sc_agents sc) = [20; 21; 22] /\ sc_eval sc = [1; 2].
Proof. eexists _, _. split; [reflexivity|]. repeat split; reflexivity. Qed.

Example C83_succeeds_nonvacuous : Forall well_behaved [ex_source 2 [false; true]; ex_source 1 [true]].
Proof.
  assert (A : forall n fl, well_behaved (ex_source n fl)).
  { intros n fl. unfold well_behaved, ex_source. cbn. split; [eexists; reflexivity|]. split.
    - intros. eexists _, _, _, _. split; [reflexivity|]. now rewrite !seq_length.
    - repeat split; intros; eexists _, _, _; (split; [reflexivity|]); now rewrite ?map_length, ?seq_length. }
  repeat apply Forall_cons; auto.
Qed.

Example C83_mismatch_nonvacuous :
  (create_source_config_agents [1; 2] [1] [1; 2] [1; 2] [1; 2] [1; 2] [true; false] 0
     : gres (list (@agent nat nat nat nat nat nat unit nat))) = inr ValueError.
Proof. reflexivity. Qed.

(* ------------------------------------------------------------------ *)

Section C85.
Context {St Geo : Type}.
Variables (l : list (list St * list Geo)) (bb collide : name -> name -> bool) (ov : name -> list name).
Hypothesis G : geometry_contract l bb collide ov.

(** The finder reports exactly the colliding pairs of agents of different sources,
    the agent of the earlier source first. *)
Theorem C85_find d : find_overlaps collide ov l = Some d ->
  forall a o, recorded d a o <-> exists_in l a /\ exists_in l o /\ fst a < fst o /\ collide a o = true.
Proof.
  intros Hf. assert (Hc : clean l bb).
  { intros a o Ha Ho E B. destruct (name_eqb a o) eqn:Q; [now apply name_eqb_eq|]. exfalso.
    assert (N : find_overlaps collide ov l = None); [|congruence].
    apply (find_none l bb collide ov G). exists a, o. repeat split; auto. intros ->.
    rewrite (proj2 (name_eqb_eq o o) eq_refl) in Q. discriminate. }
  destruct (find_clean l bb collide ov G Hc) as (d' & E & P). rewrite E in Hf. injection Hf as <-. exact P.
Qed.

(** It raises exactly if two agents of one source have overlapping bounding boxes,
    colliding or not. *)
Theorem C85_find_raises : find_overlaps collide ov l = None <->
  exists a o, exists_in l a /\ exists_in l o /\ fst a = fst o /\ a <> o /\ bb a o = true.
Proof. apply (find_none l bb collide ov G). Qed.

(** After a successful resolution no two remaining agents collide, only agents that
    collided are gone, and the others keep their order, states and geometries. *)
Theorem C85_resolved descs rs smp l' : resolve_overlaps collide ov descs rs smp l = inl l' ->
  exists gone, without gone l l' /\
    (forall a o, exists_in l a -> exists_in l o -> a <> o -> gone a = false -> gone o = false -> collide a o = false) /\
    (forall a, gone a = true -> exists o, exists_in l a /\ exists_in l o /\ fst a <> fst o /\ collide a o = true).
Proof.
  unfold resolve_overlaps. destruct (find_overlaps collide ov l) as [cs|] eqn:F; [|discriminate]. intros H.
  pose proof (C85_find cs F) as R0. destruct (delete_ok _ _ _ _ _ _ H) as (gone & W & P1 & P2).
  exists gone. split; [exact W|]. destruct G as (Gb & Gc & Gcb & Go). split.
  - intros a o Ha Ho N Ga Gg. destruct (collide a o) eqn:Cc; [|reflexivity]. exfalso.
    destruct (Nat.lt_trichotomy (fst a) (fst o)) as [Lt|[E|Lt]].
    + destruct (P1 a o) as [?|?]; [apply R0; auto|congruence|congruence].
    + assert (Nn : find_overlaps collide ov l = None); [|congruence]. apply (C85_find_raises). exists a, o.
      repeat split; auto.
    + destruct (P1 o a) as [?|?]; [apply R0; rewrite Gc; auto|congruence|congruence].
  - intros x Hx. destruct (P2 x Hx) as (a & o & Hr & Q). apply R0 in Hr as (A1 & A2 & A3 & A4).
    destruct Q as [->| ->]; [exists o|exists a]; repeat split; auto; try lia. now rewrite Gc.
Qed.

(** It succeeds if no two boxes of one source overlap and every two sources with
    overlapping boxes have a probabilistic resolution (in either order of the key). *)
Theorem C85_resolve_succeeds descs rs smp :
  (forall i sts gs, nth_error l i = Some (sts, gs) -> length gs = length sts) ->
  (forall a o, exists_in l a -> exists_in l o -> fst a = fst o -> bb a o = true -> a = o) ->
  (forall a o, exists_in l a -> exists_in l o -> fst a < fst o -> bb a o = true ->
     exists di dj r1 r2, nth_error descs (fst a) = Some di /\ nth_error descs (fst o) = Some dj /\
       (dget rs (res_key di dj) = Some (PFloat r1, PFloat r2) \/
        (dget rs (res_key di dj) = None /\ dget rs (res_key dj di) = Some (PFloat r1, PFloat r2)))) ->
  exists l', resolve_overlaps collide ov descs rs smp l = inl l'.
Proof.
  intros Len Cl Rs. unfold resolve_overlaps. destruct (find_clean l bb collide ov G Cl) as (d & E & Rec). rewrite E.
  destruct (find_keys l bb collide ov G d E Cl) as [ND K]. unfold delete_overlaps.
  destruct (mark_keys_some descs rs smp d 0 []) as (dl & Hd).
  - intros i j m Hm. destruct (K _ _ Hm) as (Lt & (a & o & A1 & A2 & A3 & A4 & A5) & _). cbn in *. subst i j.
    destruct (Rs a o A1 A2 Lt A5) as (di & dj & r1 & r2 & D1 & D2 & [D3|[D3 D4]]).
    + exists di, dj, r1, r2. repeat split; auto. unfold parse_resolution. cbv zeta. now rewrite D3.
    + exists di, dj, r2, r1. repeat split; auto. unfold parse_resolution. cbv zeta. now rewrite D3, D4.
  - rewrite Hd. pose proof Hd as Hd'. apply mark_keys_ok in Hd as (O & _ & B1 & _);
      [|split; [constructor|intros; constructor]].
    apply apply_dels_some; auto.
    + intros i Hi. destruct (mark_keys_keyset _ _ _ _ _ _ _ _ Hd' Hi) as [[]|(a & o & Hr & Q)].
      apply Rec in Hr as ((s1 & g1 & N1 & _) & (s2 & g2 & N2 & _) & _). destruct Q as [->| ->]; eauto.
    + intros x Hx. destruct (B1 x Hx) as [[]|(a & o & Hr & Q)]. apply Rec in Hr as (A1 & A2 & _).
      destruct Q as [->| ->]; assumption.
Qed.
End C85.

(** The probabilities belong to the sources named in the key, whatever the order in
    which the finder met them. *)
Theorem C85_orientation (rs : resolutions) d1 d2 a b :
  dget rs (res_key d1 d2) = Some (a, b) -> dget rs (res_key d2 d1) = None ->
  (forall r1 r2 p, parse_resolution rs d1 d2 = inl (r1, r2, p) <-> parse_resolution rs d2 d1 = inl (r2, r1, p)).
Proof.
  intros H1 H2 r1 r2 p. unfold parse_resolution. cbv zeta. rewrite H1, H2.
  destruct a, b; split; intros H; inversion H; reflexivity.
Qed.

(** With probabilities adding up to one exactly one agent of a pair is marked: the
    first if the sample is at most its probability, else the second. *)
Theorem C85_one_of_two r1 r2 smp d (c : name * name) : okdels d -> (0 <= smp)%Q -> (smp < 1)%Q -> (r1 + r2 == 1)%Q ->
  forall x, marked (mark_pair r1 r2 smp d c) x <-> marked d x \/ x = (if Qle_bool smp r1 then fst c else snd c).
Proof.
  intros O H0 H1 HS x. unfold mark_pair. rewrite (proj2 (Qle_bool_iff 0 smp) H0). cbn [andb].
  destruct (Qle_bool smp r1); cbn [negb andb].
  - apply mark_ok. assumption.
  - replace (Qle_bool smp (r1 + r2)) with true; [apply mark_ok; assumption|].
    symmetry. apply Qle_bool_iff. rewrite HS. now apply Qlt_le_weak.
Qed.

(** Integers, mixed numbers and missing schemes are refused. *)
Theorem C85_refused (rs : resolutions) d1 d2 :
  (dget rs (res_key d1 d2) = None -> dget rs (res_key d2 d1) = None -> parse_resolution rs d1 d2 = inr NameError) /\
  (forall x y, dget rs (res_key d1 d2) = Some (PInt x, PFloat y) -> parse_resolution rs d1 d2 = inr ValueError) /\
  (forall x y, dget rs (res_key d1 d2) = Some (PFloat x, PInt y) -> parse_resolution rs d1 d2 = inr ValueError) /\
  (forall descs smp k d cs i j m x y, dget rs (res_key d1 d2) = Some (PInt x, PInt y) ->
     nth_error descs i = Some d1 -> nth_error descs j = Some d2 ->
     mark_keys descs rs smp k d (((i, j), m) :: cs) = inr NotImplementedError).
Proof.
  unfold parse_resolution. cbv zeta. repeat split; intros.
  - now rewrite H, H0.
  - now rewrite H.
  - now rewrite H.
  - cbn [mark_keys]. rewrite H0, H1. unfold parse_resolution. cbv zeta. now rewrite H.
Qed.

(** A scheme is demanded even if boxes overlap and nothing collides. *)
Theorem C85_boxes_demand_scheme_refuted : exists (l : list (list nat * list nat)) bb collide ov,
  geometry_contract l bb collide ov /\ (forall a o, collide a o = false) /\
  forall smp, resolve_overlaps collide ov ["a"; "b"] [] smp l = inr NameError.
Proof.
  exists [([1], [1]); ([2], [2])], (fun a b => (fst a <? 2) && (fst b <? 2) && (snd a =? 0) && (snd b =? 0)),
    (fun _ _ => false), (fun a => if (fst a <? 2) && (snd a =? 0) then [(0, 0); (1, 0)] else []).
  split; [|split; [reflexivity|reflexivity]].
  split; [|split; [reflexivity|split; [discriminate|]]].
  - intros [a1 a2] [b1 b2]. cbn [fst snd]. rewrite <- !andb_assoc. rewrite (andb_comm (a2 =? 0)).
    destruct (a1 <? 2), (b1 <? 2), (a2 =? 0), (b2 =? 0); reflexivity.
  - intros [a1 a2] [o1 o2]. unfold exists_in. cbn [fst snd].
    destruct (a1 <? 2); cbn [andb]; [|split; [intros []|intros [_ X]; discriminate]].
    destruct (a2 =? 0); rewrite ?andb_false_r; cbn [andb]; [|split; [intros []|intros [_ X]; discriminate]].
    split.
    + intros [X|[X|[]]]; injection X as <- <-; cbn; split; try reflexivity; eexists _, _; (split; [reflexivity|cbn; lia]).
    + intros ((s & g & N & L) & X). rewrite andb_true_r in X. apply andb_true_iff in X as [X1 X2].
      apply Nat.ltb_lt in X1. apply Nat.eqb_eq in X2. subst. destruct o1 as [|[|o1]]; [now left|right; now left|lia].
Qed.

(** The generator itself never resolves conflicts: agents of two sources at the same
    place both end up in the scenario. *)
Theorem C85_not_applied_refuted : exists (srcs : list (@source nat nat nat nat nat nat unit nat nat nat)) e' sc a b,
  create_single 0 srcs (fun _ e => (e, inl tt)) 0 = (e', inl sc) /\
  nth_error (sc_agents sc) 0 = Some a /\ nth_error (sc_agents sc) 1 = Some b /\
  ag_state a = ag_state b /\ ag_geo a = ag_geo b /\ ag_id a <> ag_id b.
Proof.
  set (s := mkSource "x" (inl tt) (fun _ _ (e : nat) => (e, inl ([5], [6], [])))
    (fun _ _ _ _ e => (e, inl ([1], []))) (fun _ _ _ _ e => (e, inl ([1], []))) (fun _ _ _ _ e => (e, inl ([1], [])))
    (fun _ _ _ _ e => (e, inl ([false], []))) (fun _ _ _ _ _ e => (e, inl ([1], []))) 0
    : @source nat nat nat nat nat nat unit nat nat nat).
  exists [s; s]. eexists _, _, _, _. repeat split; try reflexivity. cbn. discriminate.
Qed.

(** Three sources: agent 1 of the first touches agent 0 of the second. *)
Definition ex_l : list (list nat * list nat) := [([1; 2], [11; 12]); ([3], [13]); ([4], [14])].
Definition ex_hit (a b : name) : bool :=
  (name_eqb a (0, 1) && name_eqb b (1, 0)) || (name_eqb b (0, 1) && name_eqb a (1, 0)).
Definition ex_ov (a : name) : list name :=
  if name_eqb a (0, 1) then [(1, 0); (0, 1)] else if name_eqb a (1, 0) then [(1, 0); (0, 1)]
  else if name_eqb a (0, 0) then [(0, 0)] else if name_eqb a (2, 0) then [(2, 0)] else [].
Definition ex_self (a : name) : bool :=
  name_eqb a (0, 0) || name_eqb a (0, 1) || name_eqb a (1, 0) || name_eqb a (2, 0).
Definition ex_bb (a b : name) : bool := (name_eqb a b && ex_self a) || ex_hit a b.

Example C85_nonvacuous : geometry_contract ex_l ex_bb ex_hit ex_ov /\
  resolve_overlaps ex_hit ex_ov ["a"; "b"; "c"] [("b/a", (PFloat (1 # 4), PFloat (3 # 4)))] (fun _ => 1 # 2)%Q ex_l
    = inl [([1], [11]); ([3], [13]); ([4], [14])] /\
  resolve_overlaps ex_hit ex_ov ["a"; "b"; "c"] [("b/a", (PFloat (1 # 4), PFloat (3 # 4)))] (fun _ => 4 # 5)%Q ex_l
    = inl [([1; 2], [11; 12]); ([], []); ([4], [14])].
Proof.
  split; [|split; reflexivity].
  assert (SY : forall a b, ex_hit a b = ex_hit b a).
  { intros a b. unfold ex_hit. apply orb_comm. }
  assert (EX : forall o, exists_in ex_l o <-> ex_self o = true).
  { intros [i j]. unfold exists_in, ex_self. rewrite !orb_true_iff, !name_eqb_eq. cbn. split.
    - intros (s & g & N & L). destruct i as [|[|[|i]]]; cbn in N.
      + injection N as <- <-. cbn in L. destruct j as [|[|j]]; auto. lia.
      + injection N as <- <-. cbn in L. destruct j as [|j]; auto. lia.
      + injection N as <- <-. cbn in L. destruct j as [|j]; auto. lia.
      + destruct i; discriminate.
    - intros [[[X|X]|X]|X]; injection X as -> ->; eexists _, _; (split; [reflexivity|cbn; lia]). }
  repeat split.
  - intros a b. unfold ex_bb. rewrite SY. f_equal. destruct (name_eqb a b) eqn:Q.
    + apply name_eqb_eq in Q. subst. now rewrite (proj2 (name_eqb_eq b b) eq_refl).
    + destruct (name_eqb b a) eqn:Q2; [|reflexivity]. apply name_eqb_eq in Q2. subst.
      rewrite (proj2 (name_eqb_eq a a) eq_refl) in Q. discriminate.
  - exact SY.
  - intros a b H. unfold ex_bb. rewrite H. apply orb_true_r.
  - apply EX. unfold ex_ov in H.
    destruct (name_eqb a (0, 1)); [destruct H as [<-|[<-|[]]]; reflexivity|].
    destruct (name_eqb a (1, 0)); [destruct H as [<-|[<-|[]]]; reflexivity|].
    destruct (name_eqb a (0, 0)); [destruct H as [<-|[]]; reflexivity|].
    destruct (name_eqb a (2, 0)); [destruct H as [<-|[]]; reflexivity|]. destruct H.
  - unfold ex_ov in H.
    destruct (name_eqb a (0, 1)) eqn:Q; [apply name_eqb_eq in Q; subst; destruct H as [<-|[<-|[]]]; reflexivity|].
    destruct (name_eqb a (1, 0)) eqn:Q1; [apply name_eqb_eq in Q1; subst; destruct H as [<-|[<-|[]]]; reflexivity|].
    destruct (name_eqb a (0, 0)) eqn:Q2; [apply name_eqb_eq in Q2; subst; destruct H as [<-|[]]; reflexivity|].
    destruct (name_eqb a (2, 0)) eqn:Q3; [apply name_eqb_eq in Q3; subst; destruct H as [<-|[]]; reflexivity|]. destruct H.
  - intros (H1 & H2). apply EX in H1. unfold ex_bb, ex_hit in H2. rewrite !orb_true_iff, !andb_true_iff, !name_eqb_eq in H2.
    destruct H2 as [[-> H2]|[[-> ->]|[-> ->]]]; [|cbn; auto..].
    unfold ex_self in H2. rewrite !orb_true_iff, !name_eqb_eq in H2.
    destruct H2 as [[[->| ->]| ->]| ->]; cbn; auto.
Qed.

Print Assumptions C83_agents. Print Assumptions C83_kwargs.
Print Assumptions C83_ids.
Print Assumptions C83_sizes.
Print Assumptions C83_succeeds.
Print Assumptions C83_scenarios.
Print Assumptions C83_empty_source.
Print Assumptions C83_first_scenario.
Print Assumptions C85_find.
Print Assumptions C85_find_raises.
Print Assumptions C85_resolved.
Print Assumptions C85_resolve_succeeds.
Print Assumptions C85_orientation.
Print Assumptions C85_one_of_two.
Print Assumptions C85_refused.
Print Assumptions C85_boxes_demand_scheme_refuted.
Print Assumptions C85_not_applied_refuted.
