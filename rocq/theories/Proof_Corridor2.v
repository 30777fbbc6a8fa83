From Coq Require Import List NArith ZArith QArith Bool Arith Lia Sorted.
From Verif Require Import Model_Map Model_Roadgraph Model_RoadSearch Model_Intersection Spec_Roadgraph
  Spec_Roadgraph2 Spec_RoadSearch Model_Corridor Spec_Corridor
  Proof_Map Proof_Roadgraph Proof_Roadgraph2 Proof_Roadgraph3 Props_Roadgraph Proof_Corridor.
Import ListNotations.
Local Open Scope nat_scope.

Section Chains.
  Context {P : Type} (L : line_ops P) (rs : croads (P:=P)).
  Hypothesis closed : forall p c q, get_lane rs p = Some c -> cl_next c = Some q -> exists c', get_lane rs q = Some c'.
  Hypothesis uniq : forall p q c c', get_lane rs p = Some c -> get_lane rs q = Some c' -> snd p = snd q -> p = q.

  Definition nxt (p q : lane_ref) : Prop := exists c, get_lane rs p = Some c /\ cl_next c = Some q.
  Inductive full : lane_ref -> list lane_ref -> Prop :=
  | full_end p c : get_lane rs p = Some c -> cl_next c = None -> full p []
  | full_step p c q rest : get_lane rs p = Some c -> cl_next c = Some q -> full q rest -> full p (q :: rest).

  Lemma full_det p r1 : full p r1 -> forall r2, full p r2 -> r1 = r2.
  Proof.
    induction 1 as [p c G N|p c q rest G N F IH]; intros r2 F2; inversion F2; subst; try congruence.
    assert (q0 = q) as -> by congruence. f_equal. auto.
  Qed.
  Lemma full_in_table p r : full p r -> forall q, In q (p :: r) -> exists c, get_lane rs q = Some c.
  Proof.
    induction 1 as [p c G N|p c q rest G N F IH]; intros x Hx.
    - destruct Hx as [<-|[]]. eauto.
    - destruct Hx as [<-|Hx]; eauto.
  Qed.
  Lemma full_closed p r : full p r -> forall x y, In x (p :: r) -> nxt x y -> In y (p :: r).
  Proof.
    induction 1 as [p c G N|p c q rest G N F IH]; intros x y Hx (cx & Gx & Nx).
    - destruct Hx as [<-|[]]. congruence.
    - destruct Hx as [<-|Hx].
      + assert (y = q) as -> by congruence. cbn. auto.
      + right. eapply IH; eauto. exists cx. auto.
  Qed.
  Lemma full_suffix p r : full p r -> forall x, In x (p :: r) -> exists r', full x r' /\ exists pre, p :: r = pre ++ x :: r'.
  Proof.
    induction 1 as [p c G N|p c q rest G N F IH]; intros x Hx.
    - destruct Hx as [<-|[]]. exists []. split; [eapply full_end; eauto|]. exists []. reflexivity.
    - destruct Hx as [<-|Hx].
      + exists (q :: rest). split; [eapply full_step; eauto|]. exists []. reflexivity.
      + destruct (IH x Hx) as (r' & F' & pre & E). exists r'. split; auto. exists (p :: pre). cbn. now rewrite E.
  Qed.
  Lemma full_chain p r : full p r -> chain nxt (p :: r).
  Proof.
    induction 1 as [p c G N|p c q rest G N F IH]; cbn; auto. split; [exists c; auto|exact IH].
  Qed.
  Lemma full_last p r : full p r -> exists z c, ends z (p :: r) /\ get_lane rs z = Some c /\ cl_next c = None.
  Proof.
    induction 1 as [p c G N|p c q rest G N F IH].
    - exists p, c. split; auto. exists []. reflexivity.
    - destruct IH as (z & cz & (pre & E) & Gz & Nz). exists z, cz. split; auto. exists (p :: pre). cbn. now rewrite E.
  Qed.

  Definition extended (rest : list lane_ref) (lc : lcorr P) : option (lcorr P) :=
    ofold (fun lc q => match get_lane rs q with Some c => extend L lc q c | None => None end) rest lc.

  Lemma extend_chain lc q c lc' : extend L lc q c = Some lc' -> lc_chain lc' = lc_chain lc ++ [q].
  Proof.
    unfold extend. destruct (lo_concat L _ _); [|discriminate]. destruct (lo_concat L _ _); [|discriminate].
    destruct (lo_concat L _ _); [|discriminate]. intros E. inversion E; subst. reflexivity.
  Qed.
  Lemma extended_chain rest : forall lc lc', extended rest lc = Some lc' -> lc_chain lc' = lc_chain lc ++ rest.
  Proof.
    induction rest as [|q rest IH]; intros lc lc' E; cbn in E.
    - inversion E; subst. now rewrite app_nil_r.
    - destruct (get_lane rs q) as [c|]; [|discriminate]. destruct (extend L lc q c) as [lc1|] eqn:X; [|discriminate].
      apply IH in E. apply extend_chain in X. rewrite E, X, <- app_assoc. reflexivity.
  Qed.

  Lemma follow_spec n : forall i p c lc mp lc' mp', get_lane rs p = Some c ->
    follow L n rs i lc mp c = Done (lc', mp') ->
    exists rest, full p rest /\ extended rest lc = Some lc' /\
      mp' = fold_left (fun mp q => m_insert (snd q) i mp) rest mp.
  Proof.
    induction n as [|n IH]; intros i p c lc mp lc' mp' G F; cbn in F; [discriminate|].
    destruct (cl_next c) as [q|] eqn:N.
    - destruct (get_lane rs q) as [c'|] eqn:Gq; [|discriminate].
      destruct (extend L lc q c') as [lc1|] eqn:X; [|discriminate].
      destruct (IH i q c' _ _ _ _ Gq F) as (rest & Fu & Ex & Mp).
      exists (q :: rest). split; [eapply full_step; eauto|]. split; auto.
      unfold extended. cbn. rewrite Gq, X. exact Ex.
    - inversion F; subst. exists []. split; [eapply full_end; eauto|]. split; reflexivity.
  Qed.

  Lemma fold_insert_find (i : nat) rest : forall mp id,
    m_find id (fold_left (fun mp q => m_insert (snd q) i mp) rest mp) =
    if in_dec N.eq_dec id (map (snd (A:=N) (B:=N)) rest) then Some i else m_find id mp.
  Proof.
    induction rest as [|q rest IH]; intros mp id; cbn [fold_left map]; [reflexivity|].
    rewrite IH. destruct (in_dec N.eq_dec id (map snd rest)) as [I|I], (in_dec N.eq_dec id (snd q :: map snd rest)) as [J|J]; auto.
    - exfalso. apply J. cbn. auto.
    - destruct J as [<-|J]; [|contradiction]. apply m_find_insert_same.
    - apply m_find_insert_other. intros ->. apply J. cbn. auto.
  Qed.

  (* one lane object after the other *)
  Definition item : Type := N * (N * clane P).
  Definition item_ref (it : item) : lane_ref := (fst it, fst (snd it)).
  Definition step (fuel : nat) (st : outcome (kmap nat * list (lcorr P))) (it : item) :=
    calc_lane L fuel rs (fst it) st (snd it).
  Definition road_items (rl : N * kmap (clane P)) : list item := map (fun kc => (fst rl, kc)) (snd rl).

  Lemma calc_road_items fuel st rl : calc_road L fuel rs st rl = fold_left (step fuel) (road_items rl) st.
  Proof.
    unfold calc_road, road_items. generalize (snd rl) as ls. intros ls. revert st.
    induction ls as [|kc ls IH]; intros st; cbn; auto.
  Qed.
  Lemma calc_roads_items fuel rls : forall st,
    fold_left (calc_road L fuel rs) rls st = fold_left (step fuel) (flat_map road_items rls) st.
  Proof.
    induction rls as [|rl rls IH]; intros st; cbn; auto. rewrite fold_left_app, <- calc_road_items. apply IH.
  Qed.

  Definition open_lane (p : lane_ref) : Prop :=
    exists c, get_lane rs p = Some c /\ l_type (cl_lane c) = DRIVING /\ l_pos (cl_lane c) <> 0%Z.

  Definition has_lane_id (id : N) (lc : lcorr P) : Prop := In id (map snd (lc_chain lc)).

  Definition corr_ok (done : list item) (mp : kmap nat) (us : list (lcorr P)) (i : nat) (lc : lcorr P) : Prop :=
    exists h rest c lc0, lc_chain lc = h :: rest /\ get_lane rs h = Some c /\
      l_type (cl_lane c) = DRIVING /\ l_pos (cl_lane c) <> 0%Z /\ full h rest /\
      extended rest (start_corr L h c) = Some lc0 /\ finish L lc0 = Some lc /\
      (forall j lc', j < i -> nth_error us j = Some lc' -> ~ has_lane_id (snd h) lc') /\
      exists pre post, done = pre ++ (fst h, (snd h, c)) :: post /\
        forall it, In it pre -> open_lane (item_ref it) -> ~ nxt (item_ref it) h.

  Definition inv (done : list item) (mp : kmap nat) (us : list (lcorr P)) : Prop :=
    (forall i lc, nth_error us i = Some lc -> corr_ok done mp us i lc) /\
    (forall id i, m_find id mp = Some i -> exists lc, nth_error us i = Some lc /\ has_lane_id id lc) /\
    (forall id i lc, nth_error us i = Some lc -> has_lane_id id lc -> exists j, m_find id mp = Some j /\ i <= j) /\
    (forall it, In it done -> open_lane (item_ref it) -> m_find (snd (item_ref it)) mp <> None).

  Lemma nth_error_snoc {A : Type} (us : list A) x i y : nth_error (us ++ [x]) i = Some y ->
    (i < length us /\ nth_error us i = Some y) \/ (i = length us /\ y = x).
  Proof.
    destruct (Nat.lt_ge_cases i (length us)) as [H|H].
    - rewrite nth_error_app1 by auto. auto.
    - rewrite nth_error_app2 by auto. destruct (i - length us) as [|k] eqn:E; cbn.
      + intros X. inversion X. right. split; [lia|auto].
      + destruct k; discriminate.
  Qed.

  Lemma inv_step fuel done mp us it mp' us' :
    get_lane rs (item_ref it) = Some (snd (snd it)) ->
    inv done mp us -> step fuel (Done (mp, us)) it = Done (mp', us') -> inv (done ++ [it]) mp' us'.
  Proof.
    destruct it as [r [id c]]. unfold item_ref. cbn [fst snd]. intros G (I1 & I2 & I3 & I4) E.
    unfold step, calc_lane in E. cbn [fst snd] in E.
    set (skip := (match m_find id mp with Some _ => true | None => false end) || (l_pos (cl_lane c) =? 0)%Z) in *.
    assert (Keep : (open_lane (r, id) -> m_find id mp <> None) -> mp' = mp -> us' = us -> inv (done ++ [(r, (id, c))]) mp' us').
    { intros K -> ->. split; [|split; [|split]]; auto.
      - intros i lc N. destruct (I1 i lc N) as (h & rest & ch & lc0 & A1 & A2 & A3 & A4 & A5 & A6 & A7 & A8 & pre & post & A9 & A10).
        exists h, rest, ch, lc0. repeat (split; [assumption|]). exists pre, (post ++ [(r, (id, c))]).
        split; auto. rewrite A9, <- app_assoc. reflexivity.
      - intros it H. apply in_app_or in H as [H|H]; [now apply I4|]. destruct H as [<-|[]]. exact K. }
    destruct skip eqn:Sk.
    { inversion E; subst. apply Keep; auto. intros (c0 & G0 & _ & Z0).
      assert (c0 = c) as -> by congruence. unfold skip in Sk. destruct (m_find id mp'); [discriminate|].
      cbn in Sk. apply Z.eqb_eq in Sk. congruence. }
    destruct (is_driving (l_type (cl_lane c))) eqn:Dr; cbn [negb] in E.
    2: { inversion E; subst. apply Keep; auto. intros (c0 & G0 & D0 & _). assert (c0 = c) as -> by congruence.
         rewrite D0 in Dr. discriminate. }
    destruct (follow L fuel rs (length us) (start_corr L (r, id) c) (m_insert id (length us) mp) c) as [[lc1 mp1]| |] eqn:F; try discriminate.
    destruct (finish L lc1) as [lc|] eqn:Fi; [|discriminate]. inversion E; subst mp' us'; clear E Keep.
    destruct (follow_spec fuel (length us) (r, id) c _ _ _ _ G F) as (rest & Fu & Ex & ->).
    pose proof (extended_chain _ _ _ Ex) as Ch. cbn in Ch.
    assert (Ch' : lc_chain lc = (r, id) :: rest).
    { unfold finish in Fi. destruct (lo_simplify L (lc_left lc1)); [discriminate|]. inversion Fi; subst. exact Ch. }
    assert (Fnd : forall x, m_find x (fold_left (fun mp q => m_insert (snd q) (length us) mp) rest (m_insert id (length us) mp)) =
        if in_dec N.eq_dec x (map snd (lc_chain lc)) then Some (length us) else m_find x mp).
    { intros x. rewrite Ch'. exact (fold_insert_find (length us) ((r, id) :: rest) mp x). }
    assert (Unm : m_find id mp = None) by (unfold skip in Sk; destruct (m_find id mp); [discriminate|reflexivity]).
    assert (Dd : l_type (cl_lane c) = DRIVING) by (destruct (l_type (cl_lane c)); [reflexivity|discriminate]).
    assert (Pz : l_pos (cl_lane c) <> 0%Z).
    { unfold skip in Sk. rewrite Unm in Sk. cbn in Sk. now apply Z.eqb_neq. }
    split; [|split; [|split]].
    - intros i lci N. apply nth_error_snoc in N as [(Hi & N)|(-> & ->)].
      + destruct (I1 i lci N) as (h & rest' & ch & lc0 & A1 & A2 & A3 & A4 & A5 & A6 & A7 & A8 & pre & post & A9 & A10).
        exists h, rest', ch, lc0. repeat (split; [assumption|]). split.
        * intros j lc' Hj N'. apply nth_error_snoc in N' as [(_ & N')|(-> & ->)]; [eauto|lia].
        * exists pre, (post ++ [(r, (id, c))]). split; auto. rewrite A9, <- app_assoc. reflexivity.
      + exists (r, id), rest, c, lc1. repeat (split; [assumption|]). split.
        * intros j lc' Hj N'. apply nth_error_snoc in N' as [(_ & N')|(-> & _)]; [|lia].
          cbn. intros Hid. destruct (I3 id j lc' N' Hid) as (k & K & _). congruence.
        * exists done, []. cbn. split; auto. intros it Hit Op Nx.
          specialize (I4 it Hit Op). destruct (m_find (snd (item_ref it)) mp) as [k|] eqn:K; [|congruence].
          destruct (I2 _ _ K) as (lck & Nk & Hk).
          destruct (I1 k lck Nk) as (h & rest' & ch & lc0 & A1 & A2 & A3 & A4 & A5 & _).
          assert (In (item_ref it) (h :: rest')) as Hit'.
          { unfold has_lane_id in Hk. rewrite A1 in Hk. apply in_map_iff in Hk as (x & Ex' & Hx).
            destruct (full_in_table _ _ A5 x Hx) as (cx & Gx). destruct Op as (ci & Gi & _).
            rewrite <- (uniq x (item_ref it) cx ci Gx Gi Ex'). exact Hx. }
          pose proof (full_closed _ _ A5 _ _ Hit' Nx) as Hh.
          assert (Hid : has_lane_id id lck) by (unfold has_lane_id; rewrite A1; now apply (in_map snd) in Hh).
          destruct (I3 id k lck Nk Hid) as (j & J & _). congruence.
    - intros x i Fx. rewrite Fnd in Fx. destruct (in_dec N.eq_dec x (map snd (lc_chain lc))) as [I|I].
      + inversion Fx; subst i. exists lc. split; auto. rewrite nth_error_app2 by auto. now rewrite Nat.sub_diag.
      + destruct (I2 x i Fx) as (lci & Ni & Hi). exists lci. split; auto. rewrite nth_error_app1; auto.
        apply nth_error_Some. congruence.
    - intros x i lci N Hx. rewrite Fnd. apply nth_error_snoc in N as [(Hi & N)|(-> & ->)].
      + destruct (in_dec N.eq_dec x (map snd (lc_chain lc))) as [I|I]; [exists (length us); split; auto; lia|].
        exact (I3 x i lci N Hx).
      + destruct (in_dec N.eq_dec x (map snd (lc_chain lc))) as [I|I]; [eauto|contradiction].
    - intros it H Op. rewrite Fnd. destruct (in_dec N.eq_dec (snd (item_ref it)) (map snd (lc_chain lc))) as [I|I]; [discriminate|].
      apply in_app_or in H as [H|H]; [now apply I4|]. destruct H as [<-|[]]. exfalso. apply I. rewrite Ch'. cbn. auto.
  Qed.

  Lemma step_stuck fuel st its : (forall x, st <> Done x) -> fold_left (step fuel) its st = st.
  Proof.
    induction its as [|it its IH]; intros N; cbn; auto.
    assert (E : step fuel st it = st) by (unfold step, calc_lane; destruct st; [congruence|reflexivity|reflexivity]).
    rewrite E. auto.
  Qed.

  Lemma inv_run fuel its : forall done mp us mp' us',
    (forall it, In it its -> get_lane rs (item_ref it) = Some (snd (snd it))) ->
    inv done mp us -> fold_left (step fuel) its (Done (mp, us)) = Done (mp', us') -> inv (done ++ its) mp' us'.
  Proof.
    induction its as [|it its IH]; intros done mp us mp' us' H I E; cbn [fold_left] in E.
    - inversion E; subst. now rewrite app_nil_r.
    - destruct (step fuel (Done (mp, us)) it) as [[mp1 us1]| |] eqn:S; rewrite ?S in E.
      + replace (done ++ it :: its) with ((done ++ [it]) ++ its) by (rewrite <- app_assoc; reflexivity).
        apply (IH (done ++ [it]) mp1 us1); [intros; apply H; cbn; auto| |exact E].
        eapply inv_step; eauto. apply H. cbn. auto.
      + rewrite step_stuck in E by discriminate. discriminate.
      + rewrite step_stuck in E by discriminate. discriminate.
  Qed.

  Definition all_items (first : N) (ls : kmap (clane P)) : list item :=
    road_items (first, ls) ++ flat_map road_items rs.

  Lemma calc_inv fuel first ls mp us : m_find first rs = Some ls ->
    m_sorted rs -> (forall r ls, In (r, ls) rs -> m_sorted ls) ->
    calc_corridors L fuel rs first = Done (mp, us) -> inv (all_items first ls) mp us.
  Proof.
    intros Fi S Ss E. unfold calc_corridors in E. rewrite Fi in E.
    rewrite calc_road_items, calc_roads_items, <- fold_left_app in E.
    apply (inv_run fuel (all_items first ls) [] [] [] mp us).
    - intros it H. unfold all_items in H.
      assert (In it (flat_map road_items rs)) as Hit.
      { apply in_app_or in H as [H|H]; auto. apply in_flat_map. exists (first, ls). split; auto. now apply m_find_In. }
      apply in_flat_map in Hit as ([r l'] & Hr & Hit). unfold road_items in Hit. apply in_map_iff in Hit as ([k c] & <- & Hk).
      cbn in *. unfold get_lane, item_ref. cbn. assert (m_find r rs = Some l') as -> by (apply (m_find_iff _ _ _ S); auto).
      apply m_find_iff; eauto.
    - split; [|split; [|split]].
      + intros i lc N. destruct i; discriminate.
      + intros id i N. discriminate.
      + intros id i lc N. destruct i; discriminate.
      + intros it [].
    - exact E.
  Qed.

  (* more fuel does not change a result *)
  Lemma follow_mono n k : n <= k -> forall i lc mp c x, follow L n rs i lc mp c = Done x -> follow L k rs i lc mp c = Done x.
  Proof.
    revert k. induction n as [|n IH]; intros k Hk i lc mp c x F; [discriminate|].
    destruct k as [|k]; [lia|]. cbn in F |- *. destruct (cl_next c) as [q|]; auto.
    destruct (get_lane rs q) as [c'|]; [|discriminate]. destruct (extend L lc q c') as [lc1|]; [|discriminate].
    apply IH; [lia|exact F].
  Qed.
  Lemma step_mono n k st it x : n <= k -> step n st it = Done x -> step k st it = Done x.
  Proof.
    intros Hk. unfold step, calc_lane. destruct st as [[mp us]| |]; auto.
    destruct (_ || _); auto. destruct (negb _); auto.
    destruct (follow L n rs _ _ _ _) as [[lc mp1]| |] eqn:F; try discriminate.
    now rewrite (follow_mono n k Hk _ _ _ _ _ F).
  Qed.
  Lemma run_mono n k its : n <= k -> forall st x, fold_left (step n) its st = Done x -> fold_left (step k) its st = Done x.
  Proof.
    intros Hk. induction its as [|it its IH]; intros st x; cbn [fold_left]; auto. intros E.
    destruct (step n st it) as [y| |] eqn:S; rewrite ?S in E; [|rewrite step_stuck in E by discriminate; discriminate ..].
    rewrite (step_mono n k _ _ _ Hk S). auto.
  Qed.
  Lemma calc_mono n k first x : n <= k -> calc_corridors L n rs first = Done x -> calc_corridors L k rs first = Done x.
  Proof.
    intros Hk. unfold calc_corridors. destruct (m_find first rs); auto.
    rewrite !calc_road_items, !calc_roads_items, <- !fold_left_app. now apply run_mono.
  Qed.

  (* no undefined behaviour when the lines of the reachable lanes are not empty *)
  Definition solid (c : clane P) : Prop := cl_center c <> [] /\ cl_lbound c <> [] /\ cl_rbound c <> [].
  Lemma follow_no_crash n : lines_ok L ->
    (forall p c q c', get_lane rs p = Some c -> cl_next c = Some q -> get_lane rs q = Some c' -> solid c') ->
    forall i lc mp p c, get_lane rs p = Some c ->
    lc_center lc <> [] -> lc_left lc <> [] -> lc_right lc <> [] ->
    match follow L n rs i lc mp c with
    | Crash => False
    | OutOfFuel => True
    | Done (lc', _) => lc_left lc' <> []
    end.
  Proof.
    intros (LC & _) So. induction n as [|n IH]; intros i lc mp p c G H1 H2 H3; cbn; auto.
    destruct (cl_next c) as [q|] eqn:N; auto.
    destruct (closed p c q G N) as (c' & Gq). rewrite Gq. destruct (So p c q c' G N Gq) as (S1 & S2 & S3).
    unfold extend.
    destruct (LC _ _ H1 S1) as (x1 & -> & X1). destruct (LC _ _ H2 S2) as (x2 & -> & X2). destruct (LC _ _ H3 S3) as (x3 & -> & X3).
    apply (IH i _ _ q c' Gq); cbn; auto.
  Qed.

  (* termination: every chain gets strictly closer to the end of the list of roads *)
  Lemma follow_ends (rank : lane_ref -> nat) (bound : nat) :
    (forall p q, nxt p q -> rank p < rank q <= bound) ->
    forall n i lc mp p c, get_lane rs p = Some c -> bound < n + rank p -> follow L n rs i lc mp c <> OutOfFuel \/ bound < rank p.
  Proof.
    intros Rk. induction n as [|n IH]; intros i lc mp p c G H; [right; lia|].
    destruct (Nat.lt_ge_cases bound (rank p)) as [B|B]; [right; exact B|left].
    cbn. destruct (cl_next c) as [q|] eqn:N; [|discriminate].
    destruct (closed p c q G N) as (c' & Gq). rewrite Gq. destruct (extend L lc q c') as [lc1|]; [|discriminate].
    destruct (Rk p q) as (R1 & R2); [exists c; auto|].
    destruct (IH i lc1 (m_insert (snd q) i mp) q c' Gq) as [K|K]; [lia|exact K|lia].
  Qed.
End Chains.
