(* Backward walks over a predecessor map give shortest paths; Dijkstra's algorithm meets the contract. *)
From Coq Require Import List NArith ZArith Bool Arith Lia.
From Verif Require Import Model_Map Model_Roadgraph Spec_Roadgraph Proof_Roadgraph Model_RoadSearch Spec_RoadSearch.
Import ListNotations.

Section Route.
  Context {A : Type} (E : A -> A -> nat -> Prop).
  Lemma route_app x y z l w n : route E x y l n -> E y z w -> route E x z (l ++ [z]) (n + w).
  Proof.
    intros H. induction H as [x|x u y l w' n Hw H IH]; intros Hz; cbn.
    - replace w with (w + 0) by lia. econstructor; [exact Hz|constructor].
    - replace (w' + n + w) with (w' + (n + w)) by lia. econstructor; eauto.
  Qed.
  Lemma route_nonempty x y l n : route E x y l n -> l <> [].
  Proof. intros H; inversion H; discriminate. Qed.
  Lemma route_head x y l n : route E x y l n -> hd_error l = Some x.
  Proof. intros H; inversion H; reflexivity. Qed.
  Lemma route_last x y l n : route E x y l n -> exists l', l = l' ++ [y].
  Proof.
    intros H. induction H as [x|x u y l w' n Hw H (l' & ->)].
    - exists []; reflexivity.
    - exists (x :: l'). reflexivity.
  Qed.
End Route.
Lemma route_map {A B : Type} (E : A -> A -> nat -> Prop) (F : B -> B -> nat -> Prop) (h : A -> B) :
  (forall x y w, E x y w -> F (h x) (h y) w) ->
  forall x y l n, route E x y l n -> route F (h x) (h y) (map h l) n.
Proof.
  intros H x y l n R. induction R; cbn; econstructor; eauto.
Qed.

    Lemma filter_le {A : Type} (f : A -> bool) xs : length (filter f xs) <= length xs.
    Proof. induction xs as [|x r IH]; cbn; auto. destruct (f x); cbn; lia. Qed.
    Lemma filter_lt {A : Type} (f h : A -> bool) xs x :
      (forall y, f y = true -> h y = true) -> In x xs -> f x = false -> h x = true ->
      length (filter f xs) < length (filter h xs).
    Proof.
      intros Imp. induction xs as [|y r IH]; cbn; intros Hin Hf Hh; [destruct Hin|].
      assert (Le : length (filter f r) <= length (filter h r)).
      { clear - Imp. induction r as [|z q IH]; cbn; auto.
        destruct (f z) eqn:F; [rewrite (Imp _ F); cbn; lia|]. destruct (h z); cbn; lia. }
      destruct Hin as [->|Hin].
      - rewrite Hf, Hh. cbn. lia.
      - specialize (IH Hin Hf Hh). destruct (f y) eqn:F; [rewrite (Imp _ F); cbn; lia|].
        destruct (h y); cbn; lia.
    Qed.


Section Walk.
  Variable verts : list nat.
  Variable edges : list (nat * nat * nat).
  Hypothesis NDv : NoDup verts.
  Hypothesis Ev : forall u v w, In (u, v, w) edges -> In u verts /\ In v verts /\ 0 < w.
  Let E (u v w : nat) : Prop := In (u, v, w) edges.

  (* distances bound every route from below *)
  Lemma dist_lower (d : nat -> option nat) :
    (forall u v w n, In (u, v, w) edges -> d u = Some n -> exists n', d v = Some n' /\ n' <= n + w) ->
    forall u v l n, route E u v l n -> forall k, d u = Some k -> exists k', d v = Some k' /\ k' <= k + n.
  Proof.
    intros C u v l n R. induction R as [x|x y z l w n Hw R IH]; intros k Hk.
    - exists k. split; auto. lia.
    - destruct (C _ _ _ _ Hw Hk) as (k1 & Hk1 & L1). destruct (IH k1 Hk1) as (k2 & Hk2 & L2).
      exists k2. split; auto. lia.
  Qed.

  Section Pred.
    Variable s : nat.
    Variable p : nat -> nat.
    Variable d : nat -> option nat.
    Hypothesis Hs : In s verts.
    Hypothesis d_s : d s = Some 0.
    Hypothesis p_s : p s = s.
    Hypothesis p_none : forall v, In v verts -> d v = None -> p v = v.
    Hypothesis p_some : forall v n, d v = Some n -> v <> s ->
      exists w n', In (p v, v, w) edges /\ d (p v) = Some n' /\ n = n' + w.

    (* every vertex farther than k, counted: the walk visits vertices of strictly decreasing distance *)
    Definition closer (k : nat) (v : nat) : bool :=
      match d v with Some n => n <? k | None => false end.
    Lemma walk_reached : forall n v k, In v verts -> d v = Some k ->
      length (filter (closer k) verts) <= n ->
      exists l, walk n p s v = Some l /\ route E s v (rev (l ++ [s])) k.
    Proof.
      induction n as [|n IH]; intros v k Hv Hd Hn.
      - (* no vertex is closer: v = s *)
        assert (v = s).
        { destruct (Nat.eq_dec v s) as [|Ne]; auto. exfalso.
          destruct (p_some v k Hd Ne) as (w & n' & He & Hp & ->).
          destruct (Ev _ _ _ He) as (Hu & _ & Hw).
          assert (In (p v) (filter (closer (n' + w)) verts)).
          { apply filter_In. split; auto. unfold closer. rewrite Hp. apply Nat.ltb_lt. lia. }
          destruct (filter (closer (n' + w)) verts); [contradiction|cbn in Hn; lia]. }
        subst v. rewrite d_s in Hd. inversion Hd; subst. exists []. cbn. rewrite Nat.eqb_refl.
        split; auto. constructor.
      - cbn. destruct (Nat.eqb_spec v s) as [->|Ne].
        + rewrite d_s in Hd. inversion Hd; subst. exists []. split; auto. constructor.
        + destruct (p_some v k Hd Ne) as (w & n' & He & Hp & ->).
          destruct (Ev _ _ _ He) as (Hu & _ & Hw).
          destruct (Nat.eqb_spec v (p v)) as [Eq|_].
          { exfalso. rewrite <- Eq in Hp. rewrite Hp in Hd. inversion Hd. lia. }
          destruct (IH (p v) n' Hu Hp) as (l & Hl & R).
          * assert (length (filter (closer n') verts) < length (filter (closer (n' + w)) verts)); [|lia].
            apply (filter_lt _ _ _ (p v)); auto; unfold closer.
            -- intros y. destruct (d y); auto. rewrite !Nat.ltb_lt. lia.
            -- rewrite Hp. apply Nat.ltb_ge. lia.
            -- rewrite Hp. apply Nat.ltb_lt. lia.
          * exists (v :: l). rewrite Hl. split; auto. cbn. eapply route_app; eauto.
    Qed.

    Lemma walk_unreached n v : In v verts -> d v = None -> 0 < n -> walk n p s v = None.
    Proof.
      intros Hv Hd Hn. destruct n as [|n]; [lia|]. cbn.
      destruct (Nat.eqb_spec v s) as [->|Ne]; [congruence|].
      rewrite (p_none v Hv Hd), Nat.eqb_refl. reflexivity.
    Qed.
  End Pred.

  Lemma walk_spec s p t n : sp_contract verts edges s p -> In s verts -> In t verts ->
    length verts <= n -> 0 < n ->
    (exists l k, walk n p s t = Some l /\ route E s t (rev (l ++ [s])) k /\
       forall l' k', route E s t l' k' -> k <= k') \/
    (walk n p s t = None /\ forall l' k', ~ route E s t l' k').
  Proof.
    intros (d & D1 & D2 & D3 & D4 & D5) Hs Ht Hn Hn0.
    destruct (d t) as [k|] eqn:Dt.
    - left. assert (Q : exists l, walk n p s t = Some l /\ route E s t (rev (l ++ [s])) k).
      { eapply walk_reached; eauto. pose proof (filter_le (closer d k) verts). lia. }
      destruct Q as (l & W & R).
      exists l, k. split; auto. split; auto. intros l' k' R'.
      destruct (dist_lower d D5 s t l' k' R' 0 D1) as (k'' & E' & L). rewrite Dt in E'. inversion E'. lia.
    - right. split; [eapply walk_unreached; eauto|]. intros l' k' R'.
      destruct (dist_lower d D5 s t l' k' R' 0 D1) as (k'' & E' & _). congruence.
  Qed.

  (* the unbounded walk of FindAllPathsInSubgraph agrees *)
  Lemma walk_all_spec s p t n : sp_contract verts edges s p -> In s verts -> In t verts ->
    length verts <= n -> 0 < n ->
    (exists l k, walk_all n p s t = Some (Some l) /\ route E s t (rev (l ++ [s])) k /\
       forall l' k', route E s t l' k' -> k <= k') \/
    (walk_all n p s t = Some None /\ forall l' k', ~ route E s t l' k').
  Proof.
    intros (d & D1 & D2 & D3 & D4 & D5) Hs Ht Hn Hn0.
    assert (Reached : forall n v k, In v verts -> d v = Some k -> length (filter (closer d k) verts) <= n ->
      exists l, walk_all n p s v = Some (Some l) /\ route E s v (rev (l ++ [s])) k).
    { clear n Hn Hn0. induction n as [|n IH]; intros v k Hv Hd Hn.
      - assert (v = s).
        { destruct (Nat.eq_dec v s) as [|Ne]; auto. exfalso.
          destruct (D4 v k Hd Ne) as (w & n' & He & Hp & ->).
          destruct (Ev _ _ _ He) as (Hu & _ & Hw).
          assert (In (p v) (filter (closer d (n' + w)) verts)).
          { apply filter_In. split; auto. unfold closer. rewrite Hp. apply Nat.ltb_lt. lia. }
          destruct (filter (closer d (n' + w)) verts); [contradiction|cbn in Hn; lia]. }
        subst v. rewrite D1 in Hd. inversion Hd; subst. exists []. cbn. rewrite Nat.eqb_refl.
        split; auto. constructor.
      - cbn. destruct (Nat.eqb_spec v s) as [->|Ne].
        + rewrite D1 in Hd. inversion Hd; subst. exists []. split; auto. constructor.
        + destruct (D4 v k Hd Ne) as (w & n' & He & Hp & ->).
          destruct (Ev _ _ _ He) as (Hu & _ & Hw).
          destruct (Nat.eqb_spec (p v) v) as [Eq|_].
          { exfalso. rewrite Eq in Hp. rewrite Hp in Hd. inversion Hd. lia. }
          destruct (IH (p v) n' Hu Hp) as (l & Hl & R).
          * assert (length (filter (closer d n') verts) < length (filter (closer d (n' + w)) verts)); [|lia].
            apply (filter_lt _ _ _ (p v)); auto; unfold closer.
            -- intros y. destruct (d y); auto. rewrite !Nat.ltb_lt. lia.
            -- rewrite Hp. apply Nat.ltb_ge. lia.
            -- rewrite Hp. apply Nat.ltb_lt. lia.
          * exists (v :: l). rewrite Hl. split; auto. cbn. eapply route_app; eauto. }
    destruct (d t) as [k|] eqn:Dt.
    - left. destruct (Reached n t k Ht Dt) as (l & W & R).
      { pose proof (filter_le (closer d k) verts). lia. }
      exists l, k. split; auto. split; auto. intros l' k' R'.
      destruct (dist_lower d D5 s t l' k' R' 0 D1) as (k'' & E' & L). rewrite Dt in E'. inversion E'. lia.
    - right. split.
      + destruct n as [|n]; [lia|]. cbn. destruct (Nat.eqb_spec t s) as [->|Ne]; [congruence|].
        rewrite (D3 t Ht Dt), Nat.eqb_refl. reflexivity.
      + intros l' k' R'. destruct (dist_lower d D5 s t l' k' R' 0 D1) as (k'' & E' & _). congruence.
  Qed.
End Walk.

(* ---- Dijkstra's algorithm, as a witness that the contract can be met on every graph ---- *)
Section Dijkstra.
  Variable verts : list nat.
  Variable edges : list (nat * nat * nat).
  Variable s : nat.

  Record dst := mkD { dd : nat -> option nat; dp : nat -> nat; ddone : list nat }.
  Definition upd {A : Type} (f : nat -> A) (i : nat) (x : A) : nat -> A :=
    fun j => if j =? i then x else f j.
  Definition mem (i : nat) (l : list nat) : bool := existsb (Nat.eqb i) l.

  Definition relax1 (u k : nat) (st : dst) (e : nat * nat * nat) : dst :=
    let '(a, b, w) := e in
    if a =? u then
      match dd st b with
      | Some n => if k + w <? n then mkD (upd (dd st) b (Some (k + w))) (upd (dp st) b u) (ddone st) else st
      | None => mkD (upd (dd st) b (Some (k + w))) (upd (dp st) b u) (ddone st)
      end
    else st.

  (* closest vertex not yet settled *)
  Fixpoint pick (st : dst) (vs : list nat) : option (nat * nat) :=
    match vs with
    | [] => None
    | v :: r =>
        if mem v (ddone st) then pick st r
        else match dd st v, pick st r with
             | None, q => q
             | Some n, None => Some (v, n)
             | Some n, Some (u, k) => if n <=? k then Some (v, n) else Some (u, k)
             end
    end.
  Fixpoint dloop (n : nat) (st : dst) : dst :=
    match n with
    | Datatypes.O => st
    | S n' => match pick st verts with
              | None => st
              | Some (u, k) =>
                  let st' := fold_left (relax1 u k) edges st in
                  dloop n' (mkD (dd st') (dp st') (u :: ddone st'))
              end
    end.
  Definition dinit : dst := mkD (upd (fun _ => None) s (Some 0)) (fun v => v) [].
  Definition dijkstra_run : nat -> nat := dp (dloop (length verts) dinit).

  Hypothesis NDv : NoDup verts.
  Hypothesis Hs : In s verts.
  Hypothesis Ev : forall u v w, In (u, v, w) edges -> In u verts /\ In v verts /\ 0 < w.

  Lemma mem_In i l : mem i l = true <-> In i l.
  Proof.
    unfold mem. rewrite existsb_exists. split.
    - intros (x & H & E). apply Nat.eqb_eq in E. now subst.
    - intros H. exists i. split; auto. apply Nat.eqb_refl.
  Qed.

  Lemma pick_spec st vs : match pick st vs with
    | Some (u, k) => In u vs /\ ~ In u (ddone st) /\ dd st u = Some k /\
        forall v n, In v vs -> ~ In v (ddone st) -> dd st v = Some n -> k <= n
    | None => forall v, In v vs -> ~ In v (ddone st) -> dd st v = None
    end.
  Proof.
    induction vs as [|v r IH]; cbn; [tauto|].
    destruct (mem v (ddone st)) eqn:M.
    - apply mem_In in M. destruct (pick st r) as [[u k]|].
      + destruct IH as (A & B & C & D). repeat split; auto. intros w n [<-|Hw] Hn; [contradiction|eauto].
      + intros w [<-|Hw] Hn; [contradiction|auto].
    - assert (M' : ~ In v (ddone st)) by (intros H; apply mem_In in H; congruence).
      destruct (dd st v) as [n|] eqn:Dv.
      + destruct (pick st r) as [[u k]|].
        * destruct IH as (A & B & C & D). destruct (Nat.leb_spec n k) as [L|L].
          -- repeat split; auto. intros w x [<-|Hw] Hn Hx; [rewrite Dv in Hx; inversion Hx; lia|].
             pose proof (D _ _ Hw Hn Hx). lia.
          -- repeat split; auto. intros w x [<-|Hw] Hn Hx; [rewrite Dv in Hx; inversion Hx; lia|eauto].
        * repeat split; auto. intros w x [<-|Hw] Hn Hx; [rewrite Dv in Hx; inversion Hx; lia|].
          rewrite (IH w Hw Hn) in Hx. discriminate.
      + destruct (pick st r) as [[u k]|].
        * destruct IH as (A & B & C & D). repeat split; auto. intros w x [<-|Hw] Hn Hx; [congruence|eauto].
        * intros w [<-|Hw] Hn; auto.
  Qed.

  (* invariant between iterations *)
  Record dinv (st : dst) : Prop := {
    i_s : dd st s = Some 0;
    i_ps : dp st s = s;
    i_none : forall v, dd st v = None -> dp st v = v;
    i_some : forall v n, dd st v = Some n -> v <> s ->
      exists w n', In (dp st v, v, w) edges /\ dd st (dp st v) = Some n' /\ n = n' + w /\ In (dp st v) (ddone st);
    i_done : forall v, In v (ddone st) -> In v verts /\ dd st v <> None;
    i_nodup : NoDup (ddone st);
    i_sep : forall u v k n, In u (ddone st) -> ~ In v (ddone st) -> dd st u = Some k -> dd st v = Some n -> k <= n;
    i_edge : forall u v w k, In (u, v, w) edges -> In u (ddone st) -> dd st u = Some k ->
      exists n, dd st v = Some n /\ n <= k + w }.

  Lemma dinv_init : dinv dinit.
  Proof.
    constructor; cbn.
    - unfold upd. now rewrite Nat.eqb_refl.
    - reflexivity.
    - auto.
    - intros v n H Ne. unfold upd in H. destruct (Nat.eqb_spec v s); [contradiction|discriminate].
    - tauto.
    - constructor.
    - tauto.
    - tauto.
  Qed.

  (* relaxing the out-edges of u, u settled last *)
  Lemma relax_step st u k : dinv st -> In u verts -> ~ In u (ddone st) -> dd st u = Some k ->
    (forall v n, In v verts -> ~ In v (ddone st) -> dd st v = Some n -> k <= n) ->
    let st' := fold_left (relax1 u k) edges st in
    dinv (mkD (dd st') (dp st') (u :: ddone st')).
  Proof.
    intros I Hu Nu Du Min.
    (* facts kept during the fold over a part of the edges *)
    assert (G : forall es st0,
      (forall e, In e es -> In e edges) ->
      ddone st0 = ddone st -> dd st0 s = Some 0 -> dp st0 s = s ->
      (forall v, dd st0 v = None -> dp st0 v = v) ->
      (forall v, In v (u :: ddone st) -> dd st0 v = dd st v) ->
      (forall v n, dd st0 v = Some n -> ~ In v (ddone st) -> k <= n) ->
      (forall v n, dd st v = Some n -> exists n', dd st0 v = Some n' /\ n' <= n) ->
      (forall v n, dd st0 v = Some n -> v <> s ->
         exists w n', In (dp st0 v, v, w) edges /\ dd st0 (dp st0 v) = Some n' /\ n = n' + w /\ In (dp st0 v) (u :: ddone st)) ->
      let st' := fold_left (relax1 u k) es st0 in
      ddone st' = ddone st /\ dd st' s = Some 0 /\ dp st' s = s /\
      (forall v, dd st' v = None -> dp st' v = v) /\
      (forall v, In v (u :: ddone st) -> dd st' v = dd st v) /\
      (forall v n, dd st' v = Some n -> ~ In v (ddone st) -> k <= n) /\
      (forall v n, dd st0 v = Some n -> exists n', dd st' v = Some n' /\ n' <= n) /\
      (forall v n, dd st' v = Some n -> v <> s ->
         exists w n', In (dp st' v, v, w) edges /\ dd st' (dp st' v) = Some n' /\ n = n' + w /\ In (dp st' v) (u :: ddone st)) /\
      (forall v w, In (u, v, w) es -> exists n, dd st' v = Some n /\ n <= k + w)).
    { induction es as [|[[a b] w] es IH]; intros st0 Sub E0 Es Ep En Ek Em Eo Ep'; cbn -[Nat.ltb].
      - repeat split; auto; try tauto. intros v n H; exists n; auto.
      - assert (Sub' : forall e, In e es -> In e edges) by (intros e He; apply Sub; now right).
        destruct (Nat.eqb_spec a u) as [->|Ne].
        2:{ destruct (IH st0 Sub' E0 Es Ep En Ek Em Eo Ep') as (Q1 & Q2 & Q3 & Q4 & Q5 & Q6 & Q7 & Q8 & Q9).
            repeat (split; [assumption|]). intros v w' [H|H]; [inversion H; congruence|auto]. }
        assert (Hedge : In (u, b, w) edges) by (apply Sub; now left).
        destruct (Ev _ _ _ Hedge) as (_ & Hb & Hw).
        (* the update case *)
        assert (Upd : (dd st0 b = None \/ exists n, dd st0 b = Some n /\ k + w < n) ->
          let st1 := mkD (upd (dd st0) b (Some (k + w))) (upd (dp st0) b u) (ddone st0) in
          let st' := fold_left (relax1 u k) es st1 in
          ddone st' = ddone st /\ dd st' s = Some 0 /\ dp st' s = s /\
          (forall v, dd st' v = None -> dp st' v = v) /\
          (forall v, In v (u :: ddone st) -> dd st' v = dd st v) /\
          (forall v n, dd st' v = Some n -> ~ In v (ddone st) -> k <= n) /\
          (forall v n, dd st0 v = Some n -> exists n', dd st' v = Some n' /\ n' <= n) /\
          (forall v n, dd st' v = Some n -> v <> s ->
             exists w n', In (dp st' v, v, w) edges /\ dd st' (dp st' v) = Some n' /\ n = n' + w /\ In (dp st' v) (u :: ddone st)) /\
          (forall v w', (u, b, w) = (u, v, w') \/ In (u, v, w') es -> exists n, dd st' v = Some n /\ n <= k + w')).
        { intros Hcase st1.
          (* b is neither settled nor u nor s *)
          assert (Nb : ~ In b (u :: ddone st)).
          { intros Hin. pose proof (Ek b Hin) as Eb. destruct Hcase as [Hc|(n & Hc & L)].
            - destruct Hin as [<-|Hin]; [congruence|]. apply (i_done st I) in Hin as (_ & Hne). congruence.
            - destruct Hin as [<-|Hin]; [rewrite Du in Eb; rewrite Eb in Hc; inversion Hc; lia|].
              rewrite Eb in Hc. pose proof (i_sep st I b u n k Hin Nu Hc Du). lia. }
          assert (bs : b <> s).
          { intros ->. destruct Hcase as [Hc|(n & Hc & L)]; rewrite Es in Hc; [discriminate|inversion Hc; lia]. }
          destruct (IH st1) as (Q1 & Q2 & Q3 & Q4 & Q5 & Q6 & Q7 & Q8 & Q9); auto; cbn; unfold upd.
          - destruct (Nat.eqb_spec s b); [congruence|auto].
          - destruct (Nat.eqb_spec s b); [congruence|auto].
          - intros v. destruct (Nat.eqb_spec v b); [discriminate|auto].
          - intros v Hv. destruct (Nat.eqb_spec v b) as [->|]; [contradiction|auto].
          - intros v n. destruct (Nat.eqb_spec v b) as [->|]; [intros H _; inversion H; lia|apply Em].
          - intros v n Hv. destruct (Nat.eqb_spec v b) as [->|]; [|auto].
            exists (k + w). split; auto. destruct (Eo b n Hv) as (n' & Hn' & L').
            destruct Hcase as [Hc|(n'' & Hc & L)]; rewrite Hc in Hn'; [discriminate|inversion Hn'; lia].
          - intros v n Hv Nv. destruct (Nat.eqb_spec v b) as [->|Nvb].
            + inversion Hv; subst. exists w, k. split; auto. split; [|split; [auto|now left]].
              destruct (Nat.eqb_spec u b) as [->|]; [exfalso; apply Nb; now left|].
              rewrite (Ek u (or_introl eq_refl)). exact Du.
            + destruct (Ep' v n Hv Nv) as (w0 & n0 & A & B & C & D). exists w0, n0. repeat split; auto.
              destruct (Nat.eqb_spec (dp st0 v) b) as [E|]; [|auto]. rewrite E in D. contradiction.
          - repeat (split; [assumption|]).
            split.
            { intros v n Hv. destruct (Nat.eq_dec v b) as [->|Nvb].
              - destruct (Q7 b (k + w)) as (n' & Hn' & L'); [cbn; unfold upd; now rewrite Nat.eqb_refl|].
                exists n'. split; auto. destruct Hcase as [Hc|(n'' & Hc & L)]; rewrite Hc in Hv; [discriminate|inversion Hv; lia].
              - apply Q7. cbn. unfold upd. destruct (Nat.eqb_spec v b); [contradiction|auto]. }
            split; [assumption|].
            intros v w' [H|H]; [|auto]. inversion H; subst.
            apply Q7. cbn. unfold upd. now rewrite Nat.eqb_refl. }
        destruct (dd st0 b) as [n|] eqn:Db.
        + destruct (Nat.ltb_spec (k + w) n) as [L|L].
          * apply Upd. right. eauto.
          * destruct (IH st0 Sub' E0 Es Ep En Ek Em Eo Ep') as (Q1 & Q2 & Q3 & Q4 & Q5 & Q6 & Q7 & Q8 & Q9).
            repeat (split; [assumption|]). intros v w' [H|H]; [|auto]. inversion H; subst.
            destruct (Q7 v n Db) as (n' & Hn' & L'). exists n'. split; auto. lia.
        + apply Upd. left; auto. }
    destruct (G edges st) as (Q1 & Q2 & Q3 & Q4 & Q5 & Q6 & Q7 & Q8 & Q9); auto; try apply I.
    - intros v n Hv Nv. destruct (Nat.eq_dec v s) as [->|Nvs].
      + apply (Min s n Hs Nv Hv).
      + destruct (i_some st I v n Hv Nvs) as (w & n' & He & _). apply (Min v n); auto. apply (Ev _ _ _ He).
    - eauto.
    - intros v n Hv Nv. destruct (i_some st I v n Hv Nv) as (w & n' & A & B & C & D).
      exists w, n'. repeat split; auto. now right.
    - constructor; cbn; auto.
      + intros v n Hv Nv. destruct (Q8 v n Hv Nv) as (w & n' & A & B & C & D). exists w, n'.
        rewrite Q1. auto.
      + rewrite Q1. intros v [<-|Hv].
        * split; auto. rewrite (Q5 u (or_introl eq_refl)). congruence.
        * rewrite (Q5 v (or_intror Hv)). now apply (i_done st I).
      + rewrite Q1. constructor; auto. apply (i_nodup st I).
      + rewrite Q1. intros x v kx n Hx Nv Dx Dv.
        assert (Kn : k <= n) by (apply (Q6 v n Dv); intros H; apply Nv; now right).
        rewrite (Q5 x Hx) in Dx. destruct Hx as [<-|Hx]; [congruence|].
        pose proof (i_sep st I x u kx k Hx Nu Dx Du). lia.
      + rewrite Q1. intros x v w kx He Hx Dx. rewrite (Q5 x Hx) in Dx.
        destruct Hx as [<-|Hx].
        * assert (kx = k) as -> by congruence. auto.
        * destruct (i_edge st I x v w kx He Hx Dx) as (n & Dn & L).
          destruct (Q7 v n Dn) as (n' & Dn' & L'). exists n'. split; auto. lia.
  Qed.

  Lemma dloop_inv : forall n st, dinv st -> length verts <= n + length (ddone st) ->
    let st' := dloop n st in dinv st' /\ (forall v, dd st' v <> None -> In v (ddone st')).
  Proof.
    assert (Vt : forall st, dinv st -> forall v, dd st v <> None -> In v verts).
    { intros st I v Hv. destruct (Nat.eq_dec v s) as [->|Ne]; auto.
      destruct (dd st v) as [n|] eqn:D; [|contradiction].
      destruct (i_some st I v n D Ne) as (w & n' & He & _). apply (Ev _ _ _ He). }
    induction n as [|n IH]; intros st I Hn; cbn.
    - split; auto. intros v Hv.
      assert (Incl : incl verts (ddone st)).
      { apply NoDup_length_incl; [apply (i_nodup st I)|cbn in Hn; lia|]. intros x Hx. now apply (i_done st I). }
      apply Incl. eauto.
    - pose proof (pick_spec st verts) as PS. destruct (pick st verts) as [[u k]|].
      + destruct PS as (A & B & C & D). pose proof (relax_step st u k I A B C D) as I'.
        apply IH; auto. cbn. assert (E : ddone (fold_left (relax1 u k) edges st) = ddone st).
        { clear. revert st. induction edges as [|[[a b] w] es IHe]; intros st; cbn -[Nat.ltb]; auto.
          rewrite IHe. destruct (a =? u); auto. destruct (dd st b) as [q|]; auto. destruct (k + w <? q); auto. }
        rewrite E. lia.
      + split; auto. intros v Hv. destruct (in_dec Nat.eq_dec v (ddone st)) as [|Nv]; auto.
        exfalso. apply Hv. apply PS; eauto.
  Qed.

  Lemma dijkstra_contract : sp_contract verts edges s dijkstra_run.
  Proof.
    unfold dijkstra_run. destruct (dloop_inv (length verts) dinit dinv_init) as (I & Done); [cbn; lia|].
    set (st := dloop (length verts) dinit) in *. exists (dd st).
    split; [apply (i_s st I)|]. split; [apply (i_ps st I)|]. split; [intros v _; apply (i_none st I)|]. split.
    - intros v n Hv Ne. destruct (i_some st I v n Hv Ne) as (w & n' & A & B & C & _). eauto.
    - intros u v w n He Hu. eapply (i_edge st I); eauto. apply Done. congruence.
  Qed.
End Dijkstra.

(* ---- graph level ---- *)
Section Find.
  Context {P : Type}.
  Implicit Types (g : graph P) (f : filt P).

  Lemma fverts_In g f i : In i (fverts g f) <-> fvert g f i = true.
  Proof.
    unfold fverts. rewrite filter_In, in_seq. split; [tauto|]. intros H. split; auto.
    unfold fvert in H. destruct (nth_error (g_v g) i) eqn:E; [|discriminate].
    assert (i < length (g_v g)) by (apply nth_error_Some; congruence). lia.
  Qed.
  Lemma fverts_NoDup g f : NoDup (fverts g f).
  Proof. apply NoDup_filter, seq_NoDup. Qed.
  Lemma fverts_lt g f i : In i (fverts g f) -> i < length (g_v g).
  Proof. unfold fverts. rewrite filter_In, in_seq. lia. Qed.
  Lemma fverts_length g f : length (fverts g f) <= length (g_v g).
  Proof.
    unfold fverts. rewrite <- (seq_length (length (g_v g)) 0) at 2.
    generalize (seq 0 (length (g_v g))) as l. induction l as [|x r IH]; cbn; auto.
    destruct (fvert g f x); cbn; lia.
  Qed.
  Lemma weight_pos t : 0 < weight t.
  Proof. destruct t; cbn; lia. Qed.
  Lemma fedges_ok g f u v w : In (u, v, w) (fedges g f) -> In u (fverts g f) /\ In v (fverts g f) /\ 0 < w.
  Proof.
    unfold fedges. intros H. apply in_map_iff in H as (e & E & He). inversion E; subst.
    apply filter_In in He as [He Hf]. unfold fedge in Hf. apply andb_prop in Hf as [Hf H2].
    apply andb_prop in Hf as [_ H1]. rewrite !fverts_In. repeat split; auto. apply weight_pos.
  Qed.
  Lemma fedges_lane g f u v w : In (u, v, w) (fedges g f) -> lane_edge g f (vid g u) (vid g v) w.
  Proof.
    unfold fedges. intros H. apply in_map_iff in H as (e & E & He). inversion E; subst.
    apply filter_In in He as [He Hf]. unfold fedge in Hf. apply andb_prop in Hf as [Hf H2].
    apply andb_prop in Hf as [H0 H1]. exists e. repeat split; auto.
  Qed.

  (* routes by index and by lane id coincide *)
  Lemma route_ids g f u v l n : route (fun a b w => In (a, b, w) (fedges g f)) u v l n ->
    route (lane_edge g f) (vid g u) (vid g v) (map (vid g) l) n.
  Proof. apply route_map. intros x y w. apply fedges_lane. Qed.
  Lemma ids_route g f : graph_ok g -> forall x y l n, route (lane_edge g f) x y l n ->
    forall u, In u (fverts g f) -> vid g u = x ->
    exists v l', route (fun a b w => In (a, b, w) (fedges g f)) u v l' n /\ vid g v = y /\ map (vid g) l' = l /\
      In v (fverts g f).
  Proof.
    intros (ND & _ & _) x y l n R.
    induction R as [x|x y z l w n (e & He & Hf & H1 & H2 & -> & -> & ->) R IH]; intros u Hu E.
    - exists u, [u]. repeat split; auto; [constructor|cbn; congruence].
    - assert (u = e_src e) as ->.
      { apply (vid_inj g); auto; [eapply fverts_lt; eauto|eapply fverts_lt; apply fverts_In; eauto]. }
      destruct (IH (e_dst e)) as (v & l' & R' & Ev & El & Hv); [now apply fverts_In|reflexivity|].
      exists v, (e_src e :: l'). split; [|repeat split; auto].
      + econstructor; [|exact R']. unfold fedges. apply in_map_iff. exists e. split; auto.
        apply filter_In. split; auto. unfold fedge. now rewrite Hf, H1, H2.
      + cbn. now rewrite El.
  Qed.

  Definition reference_dijkstra : dijkstra P := fun g f s => dijkstra_run (fverts g f) (fedges g f) s.
  Lemma reference_dijkstra_ok : dijkstra_ok reference_dijkstra.
  Proof.
    intros g f s Hs. apply dijkstra_contract; auto using fverts_NoDup. apply fedges_ok.
  Qed.

  Lemma vec_size_ge ver g f : length (fverts g f) <= vec_size ver g f.
  Proof. destruct ver; cbn; auto. apply fverts_length. Qed.

  Lemma id_in_filtered_spec g f id : graph_ok g -> id_in_filtered g f id = true <->
    exists i, vertex_by_lane g id = Some i /\ In i (fverts g f).
  Proof.
    intros (ND & _ & _). unfold id_in_filtered. rewrite existsb_exists. split.
    - intros (i & Hi & E). apply N.eqb_eq in E. exists i. split; auto.
      pose proof (fverts_lt g f i Hi) as L. unfold vid in E.
      destruct (nth_error (g_v g) i) as [v|] eqn:Hv; [|apply nth_error_None in Hv; lia].
      subst id. exact (find_v_nth _ _ _ ND Hv).
    - intros (i & Hi & Hf). exists i. split; auto. apply N.eqb_eq. now apply vid_find.
  Qed.

  Lemma find_path_spec ver D g f x y : graph_ok g -> dijkstra_ok D ->
    id_in_filtered g f x = true -> id_in_filtered g f y = true -> in_bounds ver g f = true ->
    (exists path n, find_path ver D g f x y = Some path /\ route (lane_edge g f) x y path n /\
       forall path' n', route (lane_edge g f) x y path' n' -> n <= n') \/
    (find_path ver D g f x y = Some [] /\ forall path' n', ~ route (lane_edge g f) x y path' n').
  Proof.
    intros OK HD Hx Hy HB. unfold find_path. rewrite Hx, Hy, HB. cbn [andb].
    apply (id_in_filtered_spec g f _ OK) in Hx as (i & Hi & Fi).
    apply (id_in_filtered_spec g f _ OK) in Hy as (j & Hj & Fj).
    rewrite Hi, Hj.
    assert (Pos : 0 < vec_size ver g f).
    { pose proof (vec_size_ge ver g f). destruct (fverts g f); [destruct Fi|cbn in *; lia]. }
    assert (Conv : forall path' n', route (lane_edge g f) x y path' n' ->
      exists l', route (fun a b w => In (a, b, w) (fedges g f)) i j l' n').
    { intros path' n' R. destruct (ids_route g f OK x y path' n' R i Fi (vid_find g x i Hi)) as (v & l' & R' & Ev & _ & Fv).
      assert (v = j) as ->.
      { destruct OK as (ND & _ & _). apply (vid_inj g); auto; [eapply fverts_lt; eauto|eapply fverts_lt; eauto|].
        rewrite Ev. symmetry. now apply vid_find. }
      eauto. }
    destruct (walk_spec (fverts g f) (fedges g f) (fedges_ok g f) i (D g f i) j (vec_size ver g f)
                (HD g f i Fi) Fi Fj (vec_size_ge ver g f) Pos) as [(l & k & W & R & Min)|(W & No)].
    - left. rewrite W. exists (rev (map (vid g) l ++ [vid g i])), k. split; auto. split.
      + pose proof (route_ids g f _ _ _ _ R) as R'. rewrite map_rev, map_app in R'. cbn in R'.
        rewrite (vid_find g x i Hi) in R' at 1. rewrite (vid_find g y j Hj) in R'. exact R'.
      + intros path' n' R'. destruct (Conv _ _ R') as (l' & R''). eapply Min; eauto.
    - right. rewrite W. split; auto. intros path' n' R'. destruct (Conv _ _ R') as (l' & R''). eapply No; eauto.
  Qed.
End Find.
