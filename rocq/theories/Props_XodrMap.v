(** C115: what an OpenDRIVE map holds and its bounding box. *)
From Coq Require Import Reals List Bool NArith ZArith Permutation Lia Lra.
From Verif Require Import Base_Real Base_Geom Model_Map Proof_Map Model_Line Model_Shape Props_Shape Model_GeomPickle Model_XodrMap.
Import ListNotations.

(* ------------------------------------------------------------------------- maps *)
Lemma insert_new_find {V} (m : kmap V) kv k :
  m_find k (m_insert_new m kv) = match m_find k m with Some v => Some v | None => if N.eqb k (fst kv) then Some (snd kv) else None end.
Proof.
  unfold m_insert_new. destruct (m_find (fst kv) m) as [v|] eqn:E.
  - destruct (N.eqb_spec k (fst kv)) as [->|]; [now rewrite E|]. now destruct (m_find k m).
  - destruct (N.eqb_spec k (fst kv)) as [->|].
    + now rewrite E, m_find_insert_same.
    + rewrite m_find_insert_other by assumption. now destruct (m_find k m).
Qed.
Lemma insert_range_find {V} : forall (r m : kmap V) k,
  m_find k (m_insert_range m r) = match m_find k m with Some v => Some v | None => m_find k r end.
Proof.
  unfold m_insert_range. induction r as [|(k' & v') r IH]; intros m k; cbn [fold_left].
  - now destruct (m_find k m).
  - rewrite IH, insert_new_find. cbn [fst snd m_find]. destruct (m_find k m); [reflexivity|].
    now destruct (N.eqb k k').
Qed.

(* ------------------------------------------------------------------------- the heap *)
Lemma upd_length {A} (f : A -> A) : forall l i, length (upd l i f) = length l.
Proof. induction l as [|x l IH]; intros [|i]; cbn; auto. Qed.
Lemma upd_nth {A} (f : A -> A) d : forall l i j, nth j (upd l i f) d = if Nat.eqb i j && Nat.ltb j (length l) then f (nth j l d) else nth j l d.
Proof.
  induction l as [|x l IH]; intros i j; cbn.
  - destruct j; rewrite andb_false_r; reflexivity.
  - destruct i, j; cbn; try reflexivity. rewrite IH. reflexivity.
Qed.
Lemma xrun_snoc ops o : xrun (ops ++ [o]) = xstep (xrun ops) o.
Proof. unfold xrun. now rewrite fold_left_app. Qed.
Lemma roads_grow st o : (length (x_roads st) <= length (x_roads (xstep st o)))%nat.
Proof.
  destruct o; cbn [xstep x_roads]; rewrite ?app_length, ?upd_length; try lia. destruct (Nat.ltb r (length (x_roads st))); cbn [x_roads]; lia.
Qed.
Lemma road_id_stable st o r : (r < length (x_roads st))%nat -> road_id (xstep st o) r = road_id st r.
Proof.
  intros L. unfold road_id. destruct o; cbn [xstep x_roads]; try reflexivity.
  - now rewrite app_nth1.
  - rewrite upd_nth. destruct (_ && _); reflexivity.
  - destruct (Nat.ltb r0 (length (x_roads st))); reflexivity.
Qed.
Lemma run_stable : forall post pre r, (r < length (x_roads (xrun pre)))%nat ->
  (r < length (x_roads (xrun (pre ++ post))))%nat /\ road_id (xrun (pre ++ post)) r = road_id (xrun pre) r.
Proof.
  intros post. induction post as [|o post IH] using rev_ind; intros pre r L.
  - rewrite app_nil_r. auto.
  - destruct (IH pre r L) as [L1 E1]. rewrite app_assoc, xrun_snoc. split.
    + pose proof (roads_grow (xrun (pre ++ post)) o). lia.
    + now rewrite road_id_stable.
Qed.

(** GetRoad: the road that was added last under this id. *)
Theorem C115_get_road : forall ops id r,
  get_road (xrun ops) id = Some r <->
  exists pre post, ops = pre ++ AddRoad r :: post /\ (r < length (x_roads (xrun pre)))%nat /\ road_id (xrun pre) r = id
    /\ forall pre' r' post', post = pre' ++ AddRoad r' :: post' -> (r' < length (x_roads (xrun (pre ++ AddRoad r :: pre'))))%nat ->
         road_id (xrun (pre ++ AddRoad r :: pre')) r' <> id.
Proof.
  intros ops id r. induction ops as [|o ops IH] using rev_ind.
  - split; [discriminate|]. intros ([|] & post & E & _); discriminate.
  - rewrite xrun_snoc.
    assert (K : (get_road (xrun ops) id = Some r -> (forall r', o = AddRoad r' -> (r' < length (x_roads (xrun ops)))%nat -> road_id (xrun ops) r' <> id) ->
      exists pre post, ops ++ [o] = pre ++ AddRoad r :: post /\ (r < length (x_roads (xrun pre)))%nat /\ road_id (xrun pre) r = id
       /\ forall pre' r' post', post = pre' ++ AddRoad r' :: post' -> (r' < length (x_roads (xrun (pre ++ AddRoad r :: pre'))))%nat ->
         road_id (xrun (pre ++ AddRoad r :: pre')) r' <> id)
      /\ ((exists pre post, ops ++ [o] = pre ++ AddRoad r :: post /\ (r < length (x_roads (xrun pre)))%nat /\ road_id (xrun pre) r = id
       /\ forall pre' r' post', post = pre' ++ AddRoad r' :: post' -> (r' < length (x_roads (xrun (pre ++ AddRoad r :: pre'))))%nat ->
         road_id (xrun (pre ++ AddRoad r :: pre')) r' <> id) ->
         (o = AddRoad r /\ (r < length (x_roads (xrun ops)))%nat /\ road_id (xrun ops) r = id)
         \/ (get_road (xrun ops) id = Some r /\ forall r', o = AddRoad r' -> (r' < length (x_roads (xrun ops)))%nat -> road_id (xrun ops) r' <> id))).
    { split.
      - intros G N. apply IH in G as (pre & post & -> & L & E & F). exists pre, (post ++ [o]). split; [now rewrite <- app_assoc|].
        split; [exact L|]. split; [exact E|]. intros pre' r' post' EP Lr.
        destruct post' as [|x post'] using rev_ind.
        + apply app_inj_tail in EP as [-> ->]. now apply N.
        + rewrite app_comm_cons, app_assoc in EP. apply app_inj_tail in EP as [-> ->]. now apply (F pre' r' post').
      - intros (pre & post & EQ & L & E & F). destruct post as [|x post] using rev_ind.
        + apply app_inj_tail in EQ as [-> ->]. now left.
        + clear IHpost. rewrite app_comm_cons, app_assoc in EQ. apply app_inj_tail in EQ as [-> ->]. right. split.
          * apply IH. exists pre, post. repeat split; auto. intros pre' r' post' -> Lr. apply (F pre' r' (post' ++ [x])); auto.
            now rewrite <- app_assoc.
          * intros r' -> Lr. apply (F post r' []); auto. }
    destruct K as [K1 K2].
    assert (NR : forall o', (forall r', o' <> AddRoad r') -> get_road (xstep (xrun ops) o') id = get_road (xrun ops) id).
    { intros [] NE; try reflexivity. now elim (NE r0). }
    destruct o as [|id'|s l|r0 s|r0].
    1-4: rewrite NR by discriminate; split; [intros G; apply K1; [exact G|discriminate]|intros H; apply K2 in H as [(? & _)|(G & _)]; [discriminate|exact G]].
    unfold get_road. cbn [xstep]. destruct (Nat.ltb_spec r0 (length (x_roads (xrun ops)))) as [L|L].
    + cbn [x_map_roads]. destruct (N.eq_dec id (road_id (xrun ops) r0)) as [->|NE].
      * rewrite m_find_insert_same. split.
        -- intros H. injection H as ->. exists ops, []. repeat split; auto. intros [|] r' post' EP; discriminate.
        -- intros H. apply K2 in H as [(Eo & _)|(_ & N)]; [now injection Eo as ->|]. elim (N r0 eq_refl L eq_refl).
      * rewrite m_find_insert_other by assumption. split.
        -- intros G. apply K1; [exact G|]. intros r' Eo _. injection Eo as <-. congruence.
        -- intros H. apply K2 in H as [(Eo & _ & E)|(G & _)]; [|exact G]. injection Eo as ->. congruence.
    + split.
      * intros G. apply K1; [exact G|]. intros r' Eo L'. injection Eo as <-. lia.
      * intros H. apply K2 in H as [(Eo & L' & _)|(G & _)]; [|exact G]. injection Eo as ->. lia.
Qed.

(** GetLane: the lane under this id in the first road added that had one at that moment; what is done to sections and roads
    afterwards does not matter. *)
Theorem C115_get_lane : forall ops id x,
  get_lane (xrun ops) id = Some x <->
  exists pre r post, ops = pre ++ AddRoad r :: post /\ (r < length (x_roads (xrun pre)))%nat
    /\ m_find id (road_lanes (xrun pre) r) = Some x
    /\ forall pre' r' post', pre = pre' ++ AddRoad r' :: post' -> (r' < length (x_roads (xrun pre')))%nat ->
         m_find id (road_lanes (xrun pre') r') = None.
Proof.
  intros ops id. induction ops as [|o ops IH] using rev_ind; intros x.
  - split; [discriminate|]. intros ([|] & r & post & E & _); discriminate.
  - rewrite xrun_snoc.
    set (S0 := fun ops => exists pre r post, ops = pre ++ AddRoad r :: post /\ (r < length (x_roads (xrun pre)))%nat
      /\ m_find id (road_lanes (xrun pre) r) = Some x
      /\ forall pre' r' post', pre = pre' ++ AddRoad r' :: post' -> (r' < length (x_roads (xrun pre')))%nat ->
           m_find id (road_lanes (xrun pre') r') = None).
    change (get_lane (xstep (xrun ops) o) id = Some x <-> S0 (ops ++ [o])). specialize (IH) as IH'. specialize (IH x). change (get_lane (xrun ops) id = Some x <-> S0 ops) in IH.
    assert (A : S0 ops -> S0 (ops ++ [o])).
    { intros (pre & r & post & -> & L & F & N). exists pre, r, (post ++ [o]). split; [now rewrite <- app_assoc|]. auto. }
    assert (B : S0 (ops ++ [o]) -> S0 ops \/ exists r, o = AddRoad r /\ (r < length (x_roads (xrun ops)))%nat /\ m_find id (road_lanes (xrun ops) r) = Some x
      /\ get_lane (xrun ops) id = None).
    { intros (pre & r & post & EQ & L & F & N). destruct post as [|y post] using rev_ind.
      - apply app_inj_tail in EQ as [-> ->]. right. exists r. repeat split; auto.
        destruct (get_lane (xrun pre) id) as [y|] eqn:G; [|reflexivity]. destruct (proj1 (IH' y) eq_refl) as (p' & r' & q' & E' & L' & F' & _).
        rewrite (N p' r' q' E' L') in F'. discriminate.
      - clear IHpost. rewrite app_comm_cons, app_assoc in EQ. apply app_inj_tail in EQ as [-> ->]. left. exists pre, r, post. auto. }
    destruct o as [|id'|s l|r0 s|r0].
    1-4: match goal with |- get_lane (xstep _ ?o) _ = _ <-> _ => change (get_lane (xstep (xrun ops) o) id) with (get_lane (xrun ops) id) | _ => idtac end;
         rewrite IH; split; [exact A|intros H; apply B in H as [H|(r & E & _)]; [exact H|discriminate]].
    unfold get_lane at 1. cbn [xstep]. destruct (Nat.ltb_spec r0 (length (x_roads (xrun ops)))) as [L|L].
    + cbn [x_map_lanes]. rewrite insert_range_find. fold (get_lane (xrun ops) id). destruct (get_lane (xrun ops) id) as [y|] eqn:G.
      * split.
        -- intros H. injection H as ->. apply A, IH. reflexivity.
        -- intros H. apply B in H as [H|(r & _ & _ & _ & D)]; [|discriminate]. apply IH in H. exact H.
      * split.
        -- intros F. exists ops, r0, []. repeat split; auto. intros pre' r' post' -> L'.
           destruct (m_find id (road_lanes (xrun pre') r')) as [z|] eqn:Z; [|reflexivity]. exfalso.
           (* then an earlier road had it, and the lane would be known *)
           assert (KN : get_lane (xrun (pre' ++ AddRoad r' :: post')) id <> None); [|now elim KN].
           clear - Z L'. induction post' as [|o q IHq] using rev_ind.
           ++ rewrite xrun_snoc. unfold get_lane. cbn [xstep]. destruct (Nat.ltb_spec r' (length (x_roads (xrun pre')))); [|lia].
              cbn [x_map_lanes]. rewrite insert_range_find, Z. now destruct (m_find id (x_map_lanes (xrun pre'))).
           ++ rewrite app_comm_cons, app_assoc, xrun_snoc. unfold get_lane in *. destruct o; cbn [xstep x_map_lanes]; auto.
              destruct (Nat.ltb r (length _)); auto. cbn [x_map_lanes]. rewrite insert_range_find.
              destruct (m_find id (x_map_lanes (xrun (pre' ++ AddRoad r' :: q)))); [discriminate|now elim IHq].
        -- intros H. apply B in H as [H|(r & Eo & _ & F & _)]; [apply IH in H; discriminate|]. injection Eo as <-. exact F.
    + fold (get_lane (xrun ops) id). rewrite IH. split; [exact A|]. intros H. apply B in H as [H|(r & E & L' & _)]; [exact H|]. injection E as <-. lia.
Qed.

(* ------------------------------------------------------------------------- sections and roads *)
(** The sections of a road: those added to it, in that order; nothing else changes them. *)
Definition sections_of (st : xstate) (r : nat) : list nat := snd (nth r (x_roads st) (0%N, [])).
Theorem C115_road_sections : forall st o r, (r < length (x_roads st))%nat ->
  sections_of (xstep st o) r =
    match o with AddSectionTo r' s => if Nat.eqb r' r then sections_of st r ++ [s] else sections_of st r | _ => sections_of st r end.
Proof.
  intros st o r L. unfold sections_of. destruct o; cbn [xstep x_roads]; try reflexivity.
  - now rewrite app_nth1.
  - rewrite upd_nth. rewrite (proj2 (Nat.ltb_lt r (length (x_roads st))) L), andb_true_r. destruct (Nat.eqb r0 r); reflexivity.
  - destruct (Nat.ltb r0 (length (x_roads st))); reflexivity.
Qed.
(** A new road has none, and the id it was given. *)
Theorem C115_new_road : forall st id, x_roads (xstep st (NewRoad id)) = x_roads st ++ [(id, [])] /\
  sections_of (xstep st (NewRoad id)) (length (x_roads st)) = [] /\ road_id (xstep st (NewRoad id)) (length (x_roads st)) = id.
Proof.
  intros st id. split; [reflexivity|]. unfold sections_of, road_id. cbn [xstep x_roads]. rewrite app_nth2 by lia. rewrite Nat.sub_diag. split; reflexivity.
Qed.
(** A new section has no lanes and the others keep theirs. *)
Theorem C115_new_section : forall st, length (x_sections (xstep st NewSection)) = S (length (x_sections st)) /\
  section_lanes (xstep st NewSection) (length (x_sections st)) = [] /\
  forall s, (s < length (x_sections st))%nat -> section_lanes (xstep st NewSection) s = section_lanes st s.
Proof.
  intros st. unfold section_lanes. cbn [xstep x_sections]. split; [rewrite app_length; cbn [length]; lia|]. split.
  - rewrite app_nth2 by lia. rewrite Nat.sub_diag. reflexivity.
  - intros s L. now rewrite app_nth1.
Qed.
(** The lane a section has under an id: the one added last under it. *)
Theorem C115_section_lane : forall ops s id x,
  m_find id (section_lanes (xrun ops) s) = Some x <->
  exists pre post, ops = pre ++ AddLaneTo s x :: post /\ xl_id x = id /\ (s < length (x_sections (xrun pre)))%nat /\
    forall y, In (AddLaneTo s y) post -> xl_id y <> id.
Proof.
  intros ops s id. induction ops as [|o ops IH] using rev_ind; intros x.
  - split; [unfold section_lanes; cbn; destruct s; discriminate|]. intros ([|] & post & E & _); discriminate.
  - rewrite xrun_snoc.
    assert (OTHER : (forall y, o = AddLaneTo s y -> xl_id y <> id) -> m_find id (section_lanes (xstep (xrun ops) o) s) = m_find id (section_lanes (xrun ops) s) ->
      (m_find id (section_lanes (xstep (xrun ops) o) s) = Some x <->
       exists pre post, ops ++ [o] = pre ++ AddLaneTo s x :: post /\ xl_id x = id /\ (s < length (x_sections (xrun pre)))%nat /\
         forall y, In (AddLaneTo s y) post -> xl_id y <> id)).
    { intros NO ->. rewrite IH. split.
      - intros (pre & post & -> & E & L & N). exists pre, (post ++ [o]). split; [now rewrite <- app_assoc|]. split; [exact E|]. split; [exact L|].
        intros y I. apply in_app_iff in I. destruct I as [I|[I|[]]]; [exact (N y I)|exact (NO y I)].
      - intros (pre & post & EQ & E & L & N). destruct post as [|z post] using rev_ind.
        + apply app_inj_tail in EQ as [_ EQ]. exfalso. exact (NO x EQ E).
        + rewrite app_comm_cons, app_assoc in EQ. apply app_inj_tail in EQ as [-> _]. exists pre, post. repeat split; auto.
          intros y I. apply N, in_app_iff. auto. }
    destruct o as [|rid|s' l|r' s'|r'].
    + apply OTHER; [discriminate|]. unfold section_lanes. cbn [xstep x_sections]. destruct (Nat.lt_ge_cases s (length (x_sections (xrun ops)))) as [K|K].
      * now rewrite app_nth1.
      * rewrite app_nth2 by exact K. rewrite (nth_overflow (x_sections (xrun ops))) by exact K. destruct (s - length (x_sections (xrun ops))) as [|[|k]]; reflexivity.
    + apply OTHER; [discriminate|]. reflexivity.
    + assert (EQ : section_lanes (xstep (xrun ops) (AddLaneTo s' l)) s =
        if Nat.eqb s' s && Nat.ltb s (length (x_sections (xrun ops))) then m_insert (xl_id l) l (section_lanes (xrun ops) s) else section_lanes (xrun ops) s).
      { unfold section_lanes. cbn [xstep x_sections]. rewrite upd_nth. reflexivity. }
      destruct (Nat.eqb_spec s' s) as [->|NE]; [|apply OTHER; [intros y E; congruence|rewrite EQ; reflexivity]].
      destruct (Nat.ltb_spec s (length (x_sections (xrun ops)))) as [K|K]; cbn [andb] in EQ.
      * destruct (N.eqb_spec (xl_id l) id) as [EI|NI].
        -- rewrite EQ, EI, m_find_insert_same. split.
           ++ intros X. injection X as <-. exists ops, []. repeat split; auto.
           ++ intros (pre & post & E & Ex & L & N). destruct post as [|z post] using rev_ind.
              ** apply app_inj_tail in E as [_ E]. congruence.
              ** rewrite app_comm_cons, app_assoc in E. apply app_inj_tail in E as [_ <-]. exfalso. apply (N l); [|exact EI]. apply in_app_iff. right. left. reflexivity.
        -- apply OTHER; [intros y E; congruence|]. rewrite EQ. apply m_find_insert_other. congruence.
      * (* the section does not exist: nothing was ever added to it *)
        rewrite EQ. assert (NONE : section_lanes (xrun ops) s = []) by (unfold section_lanes; now rewrite nth_overflow). rewrite NONE. split; [discriminate|].
        intros (pre & post & E & Ex & L & N). exfalso.
        assert (G : forall a b, (length (x_sections (xrun a)) <= length (x_sections (xrun (a ++ b))))%nat).
        { intros a b. induction b as [|o b IHb] using rev_ind; [rewrite app_nil_r; lia|]. rewrite app_assoc, xrun_snoc.
          assert (M : (length (x_sections (xrun (a ++ b))) <= length (x_sections (xstep (xrun (a ++ b)) o)))%nat).
          { destruct o; cbn [xstep x_sections]; rewrite ?app_length, ?upd_length; cbn [length]; try lia. destruct (Nat.ltb r (length (x_roads (xrun (a ++ b))))); cbn [x_sections]; lia. }
          lia. }
        destruct post as [|z post] using rev_ind.
        -- apply app_inj_tail in E as [-> _]. lia.
        -- rewrite app_comm_cons, app_assoc in E. apply app_inj_tail in E as [-> _]. pose proof (G pre (AddLaneTo s x :: post)). lia.
    + apply OTHER; [discriminate|]. reflexivity.
    + apply OTHER; [discriminate|]. cbn [xstep]. destruct (Nat.ltb r' (length (x_roads (xrun ops)))); reflexivity.
Qed.
(** The lane a road has under an id: that of its first section that has one. *)
Theorem C115_road_lane : forall st r id x,
  m_find id (road_lanes st r) = Some x <->
  exists pre s post, sections_of st r = pre ++ s :: post /\ m_find id (section_lanes st s) = Some x /\
    forall s', In s' pre -> m_find id (section_lanes st s') = None.
Proof.
  intros st r id x. unfold road_lanes. fold (sections_of st r).
  assert (G : forall l m, m_find id (fold_left (fun m s => m_insert_range m (section_lanes st s)) l m) = Some x <->
    m_find id m = Some x \/ (m_find id m = None /\ exists pre s post, l = pre ++ s :: post /\ m_find id (section_lanes st s) = Some x /\
      forall s', In s' pre -> m_find id (section_lanes st s') = None)).
  { induction l as [|s l IH]; intros m; cbn [fold_left].
    - split; [auto|]. intros [H|(_ & [|] & s & post & E & _)]; [exact H|discriminate|discriminate].
    - rewrite IH, insert_range_find. destruct (m_find id m) as [v|] eqn:E.
      + split; [intros [H|[H _]]; [auto|discriminate]|]. intros [H|[H _]]; [auto|discriminate].
      + split.
        * intros [H|[H (pre & s' & post & -> & F & N)]]; right; (split; [reflexivity|]).
          -- exists [], s, l. repeat split; auto. intros s' [].
          -- exists (s :: pre), s', post. repeat split; auto. intros s'' [<-|I]; auto.
        * intros [H|[_ (pre & s' & post & EQ & F & N)]]; [discriminate|]. destruct pre as [|p pre]; cbn in EQ; injection EQ as -> ->.
          -- left. exact F.
          -- right. split; [apply N; left; reflexivity|]. exists pre, s', post. repeat split; auto. intros s'' I. apply N. right. exact I. }
  rewrite G. cbn [m_find]. split; [intros [H|[_ H]]; [discriminate|exact H]|auto].
Qed.

(* ------------------------------------------------------------------------- the bounding box *)
(** [p] is a point of a lane of a section of a road of the map, as they are now. *)
Definition on_map (st : xstate) (p : pt) : Prop :=
  exists id r s l, In (id, r) (x_map_roads st) /\ In s (snd (nth r (x_roads st) (0%N, []))) /\ In l (map snd (section_lanes st s)) /\ In p (xl_line l).
Lemma map_points_spec st p : In p (map_points st) <-> on_map st p.
Proof.
  unfold map_points, on_map. rewrite in_flat_map. split.
  - intros ((id & r) & I & J). cbn [snd] in J. apply in_flat_map in J as (s & Is & J). apply in_flat_map in J as ((k & l) & Il & J). cbn [snd] in J.
    exists id, r, s, l. repeat split; auto. apply in_map_iff. now exists (k, l).
  - intros (id & r & s & l & I & Is & Il & J). exists (id, r). split; [exact I|]. cbn [snd]. apply in_flat_map. exists s. split; [exact Is|].
    apply in_map_iff in Il as ((k & l') & El & Il). cbn in El. subst l'. apply in_flat_map. now exists (k, l).
Qed.
Local Open Scope R_scope.
(** The least box around a set of points. *)
Definition least_box (P : pt -> Prop) (b : pt * pt) : Prop :=
  (forall p, P p -> fst (fst b) <= fst p <= fst (snd b) /\ snd (fst b) <= snd p <= snd (snd b))
  /\ (exists p, P p /\ fst p = fst (fst b)) /\ (exists p, P p /\ snd p = snd (fst b))
  /\ (exists p, P p /\ fst p = fst (snd b)) /\ (exists p, P p /\ snd p = snd (snd b)).
Lemma box_of_least huge l : l <> [] -> least_box (fun p => In p l) (box_of huge l).
Proof.
  intros NE. unfold box_of. destruct (envelope l) as [[mn mx]|] eqn:E; [|destruct l; [now elim NE|discriminate]].
  destruct (envelope_bounds _ _ _ E) as ((A1 & A2) & (B1 & B2) & (C1 & C2) & (D1 & D2)). unfold least_box. cbn [fst snd].
  split; [|split; [|split; [|split]]].
  - intros p I. pose proof (A2 p I). pose proof (B2 p I). pose proof (C2 p I). pose proof (D2 p I). cbn in *. lra.
  - destruct A1 as (p & I & H). exists p. split; [exact I|cbn in *; lra].
  - destruct B1 as (p & I & H). exists p. split; [exact I|cbn in *; lra].
  - destruct C1 as (p & I & H). exists p. split; [exact I|cbn in *; lra].
  - destruct D1 as (p & I & H). exists p. split; [exact I|cbn in *; lra].
Qed.
(** The bounding box of a map with some point is the least box around all lanes of its roads, as they are now. *)
Theorem C115_bounding_box : forall huge st, (exists p, on_map st p) -> least_box (on_map st) (map_box huge st).
Proof.
  intros huge st (p0 & I0). unfold map_box. apply map_points_spec in I0.
  destruct (box_of_least huge (map_points st)) as (A & B & C & D & E).
  { intros Z. rewrite Z in I0. destruct I0. }
  split; [intros p I; apply A; now apply map_points_spec|].
  assert (T : forall Q : pt -> Prop, (exists p, In p (map_points st) /\ Q p) -> exists p, on_map st p /\ Q p).
  { intros Q (p & I & H). exists p. split; [now apply map_points_spec|exact H]. }
  repeat split; apply T; assumption.
Qed.
Lemma least_box_unique P a b : least_box P a -> least_box P b -> a = b.
Proof.
  destruct a as [[a1 a2] [a3 a4]], b as [[b1 b2] [b3 b4]]. unfold least_box. cbn [fst snd].
  intros (A & (p1 & P1 & E1) & (p2 & P2 & E2) & (p3 & P3 & E3) & (p4 & P4 & E4)) (B & (q1 & Q1 & F1) & (q2 & Q2 & F2) & (q3 & Q3 & F3) & (q4 & Q4 & F4)).
  pose proof (A _ Q1); pose proof (A _ Q2); pose proof (A _ Q3); pose proof (A _ Q4).
  pose proof (B _ P1); pose proof (B _ P2); pose proof (B _ P3); pose proof (B _ P4).
  assert (X : a1 = b1) by lra. assert (Y : a2 = b2) by lra. assert (Z : a3 = b3) by lra. assert (W : a4 = b4) by lra. now rewrite X, Y, Z, W.
Qed.
(** A map without points has the box of all numbers, so that nothing is outside. *)
Theorem C115_empty_map_box : forall huge st, (forall p, ~ on_map st p) -> map_box huge st = ((- huge, - huge), (huge, huge)).
Proof.
  intros huge st N. unfold map_box. destruct (map_points st) as [|p r] eqn:E; [reflexivity|].
  elim (N p). apply map_points_spec. rewrite E. now left.
Qed.
(** MergeBoundingBoxes: the least box around both. *)
Theorem C115_merge_boxes : forall huge (P Q : pt -> Prop) a b, least_box P a -> least_box Q b ->
  least_box (fun p => P p \/ Q p) (merge_boxes huge a b).
Proof.
  intros huge P Q a b LA LB. unfold merge_boxes.
  destruct (box_of_least huge [fst a; snd a; fst b; snd b]) as (M & M1 & M2 & M3 & M4); [discriminate|].
  set (m := box_of huge _) in *. clearbody m.
  destruct a as [[a1 a2] [a3 a4]], b as [[b1 b2] [b3 b4]], m as [[m1 m2] [m3 m4]]. cbn [fst snd] in *.
  destruct LA as (A & (p1 & P1 & E1) & (p2 & P2 & E2) & (p3 & P3 & E3) & (p4 & P4 & E4)).
  destruct LB as (B & (q1 & Q1 & F1) & (q2 & Q2 & F2) & (q3 & Q3 & F3) & (q4 & Q4 & F4)). cbn [fst snd] in *.
  pose proof (M (a1, a2) ltac:(cbn; auto)) as X1. pose proof (M (a3, a4) ltac:(cbn; auto)) as X2.
  pose proof (M (b1, b2) ltac:(cbn; auto)) as X3. pose proof (M (b3, b4) ltac:(cbn; auto)) as X4. cbn [fst snd] in *.
  pose proof (A _ P1); pose proof (A _ P2); pose proof (A _ P3); pose proof (A _ P4).
  pose proof (B _ Q1); pose proof (B _ Q2); pose proof (B _ Q3); pose proof (B _ Q4).
  unfold least_box. cbn [fst snd]. split; [|split; [|split; [|split]]].
  - intros p [I|I]; [pose proof (A _ I)|pose proof (B _ I)]; lra.
  - destruct M1 as (z & [<-|[<-|[<-|[<-|[]]]]] & E); cbn in E; [exists p1|exists p1|exists q1|exists q1]; (split; [auto|lra]).
  - destruct M2 as (z & [<-|[<-|[<-|[<-|[]]]]] & E); cbn in E; [exists p2|exists p2|exists q2|exists q2]; (split; [auto|lra]).
  - destruct M3 as (z & [<-|[<-|[<-|[<-|[]]]]] & E); cbn in E; [exists p3|exists p3|exists q3|exists q3]; (split; [auto|lra]).
  - destruct M4 as (z & [<-|[<-|[<-|[<-|[]]]]] & E); cbn in E; [exists p4|exists p4|exists q4|exists q4]; (split; [auto|lra]).
Qed.
Local Close Scope R_scope.

(* ------------------------------------------------------------------------- a map built like the parser does *)
(** The parser (xodr_parser.py:400-512) completes each road and then adds it once. Here: all roads are completed first. *)
Definition no_add (ops : list xop) : Prop := forall r, ~ In (AddRoad r) ops.
Definition complete (build : list xop) (rs : list nat) : xstate := xrun (build ++ map AddRoad rs).
Definition distinct_ids (st : xstate) (rs : list nat) : Prop :=
  NoDup (map (road_id st) rs) /\ forall r, In r rs -> (r < length (x_roads st))%nat.

Lemma no_add_map : forall build, no_add build -> x_map_roads (xrun build) = [] /\ x_map_lanes (xrun build) = [].
Proof.
  induction build as [|o b IH] using rev_ind; intros N; [split; reflexivity|].
  destruct IH as [E1 E2]; [intros r I; apply (N r), in_or_app; now left|]. rewrite xrun_snoc.
  destruct o; cbn; auto. elim (N r). apply in_or_app. right. now left.
Qed.
Lemma complete_heap build : forall rs, x_sections (complete build rs) = x_sections (xrun build) /\ x_roads (complete build rs) = x_roads (xrun build).
Proof.
  intros rs. unfold complete. induction rs as [|r rs IH] using rev_ind; [now rewrite app_nil_r|].
  rewrite map_app, app_assoc. cbn [map]. rewrite xrun_snoc. cbn [xstep]. destruct (Nat.ltb _ _); cbn; exact IH.
Qed.
Lemma complete_roads build : no_add build -> forall rs, distinct_ids (xrun build) rs ->
  m_sorted (x_map_roads (complete build rs)) /\
  forall id r, m_find id (x_map_roads (complete build rs)) = Some r <-> In r rs /\ road_id (xrun build) r = id.
Proof.
  intros NA. induction rs as [|r0 rs IH] using rev_ind; intros [ND LT].
  - unfold complete. cbn. rewrite app_nil_r. destruct (no_add_map _ NA) as [E _]. rewrite E. split; [constructor|].
    intros id r. split; [discriminate|intros ([] & _)].
  - rewrite map_app in ND. cbn in ND.
    pose proof (NoDup_remove_2 _ _ _ ND) as NI. rewrite app_nil_r in NI. pose proof (NoDup_remove_1 _ _ _ ND) as ND'. rewrite app_nil_r in ND'.
    destruct IH as [SO F]; [split; [exact ND'|intros r I; apply LT, in_or_app; now left]|].
    unfold complete in *. rewrite map_app, app_assoc. cbn [map]. rewrite xrun_snoc. cbn [xstep].
    destruct (complete_heap build rs) as [_ HR]. unfold complete in HR.
    assert (RID : forall r, road_id (xrun (build ++ map AddRoad rs)) r = road_id (xrun build) r) by (intros r; unfold road_id; now rewrite HR).
    rewrite HR. destruct (Nat.ltb_spec r0 (length (x_roads (xrun build)))) as [L|L].
    2:{ specialize (LT r0 ltac:(apply in_or_app; right; now left)). lia. }
    cbn [x_map_roads]. rewrite RID. split; [now apply m_insert_sorted|].
    intros id r. destruct (N.eq_dec id (road_id (xrun build) r0)) as [->|NE].
    + rewrite m_find_insert_same. split.
      * intros E. injection E as <-. split; [apply in_or_app; right; now left|reflexivity].
      * intros [I E]. apply in_app_or in I as [I|[<-|[]]]; [|reflexivity]. elim NI. rewrite <- E. now apply in_map.
    + rewrite m_find_insert_other by assumption. rewrite F. split.
      * intros [I E]. split; [apply in_or_app; now left|exact E].
      * intros [I E]. apply in_app_or in I as [I|[<-|[]]]; [auto|congruence].
Qed.
Lemma complete_lanes build : no_add build -> forall rs, (forall r, In r rs -> (r < length (x_roads (xrun build)))%nat) ->
  forall id, m_find id (x_map_lanes (complete build rs)) =
    fold_left (fun o r => match o with Some x => Some x | None => m_find id (road_lanes (xrun build) r) end) rs None.
Proof.
  intros NA. induction rs as [|r0 rs IH] using rev_ind; intros LT id.
  - unfold complete. cbn. rewrite app_nil_r. destruct (no_add_map _ NA) as [_ E]. now rewrite E.
  - rewrite fold_left_app. cbn [fold_left]. rewrite <- IH by (intros r I; apply LT, in_or_app; now left).
    destruct (complete_heap build rs) as [HS HR]. unfold complete in *. rewrite map_app, app_assoc. cbn [map]. rewrite xrun_snoc. cbn [xstep].
    rewrite HR. destruct (Nat.ltb_spec r0 (length (x_roads (xrun build)))) as [L|L].
    2:{ specialize (LT r0 ltac:(apply in_or_app; right; now left)). lia. }
    cbn [x_map_lanes]. rewrite insert_range_find. unfold road_lanes, section_lanes. rewrite HR, HS. reflexivity.
Qed.
(** Roads with distinct ids: each is found under its id and no other road is. With lane ids that occur in one road only, the
    lanes of the map are exactly the lanes of the roads. *)
Theorem C115_complete_map : forall build rs, no_add build -> distinct_ids (xrun build) rs ->
  (forall id r, get_road (complete build rs) id = Some r <-> In r rs /\ road_id (xrun build) r = id)
  /\ ((forall r r' id x x', In r rs -> In r' rs -> m_find id (road_lanes (xrun build) r) = Some x -> m_find id (road_lanes (xrun build) r') = Some x' -> r = r') ->
      forall id x, get_lane (complete build rs) id = Some x <-> exists r, In r rs /\ m_find id (road_lanes (xrun build) r) = Some x).
Proof.
  intros build rs NA D. split; [apply (complete_roads _ NA _ D)|].
  intros U id x. unfold get_lane. rewrite (complete_lanes _ NA _ (proj2 D)).
  assert (G : forall l, (forall r, In r l -> In r rs) ->
    fold_left (fun o r => match o with Some x => Some x | None => m_find id (road_lanes (xrun build) r) end) l None = Some x
    <-> exists r, In r l /\ m_find id (road_lanes (xrun build) r) = Some x).
  { induction l as [|r l IH] using rev_ind; intros SUB.
    - split; [discriminate|intros (r & [] & _)].
    - rewrite fold_left_app. cbn [fold_left]. specialize (IH ltac:(intros q I; apply SUB, in_or_app; now left)).
      destruct (fold_left _ l None) as [y|] eqn:E.
      + split.
        * intros H. apply IH in H as (q & I & F). exists q. split; [apply in_or_app; now left|exact F].
        * intros (q & I & F). apply in_app_or in I as [I|[<-|[]]]; [apply IH; eauto|].
          (* the lane also occurs in an earlier road, which is then the same *)
          assert (E2 : exists q, In q l /\ m_find id (road_lanes (xrun build) q) = Some y).
          { clear - E. induction l as [|a l IHl] using rev_ind; [discriminate|]. rewrite fold_left_app in E. cbn [fold_left] in E.
            destruct (fold_left _ l None) as [z|] eqn:Z.
            - destruct (IHl E) as (q & I & F). exists q. split; [apply in_or_app; now left|exact F].
            - exists a. split; [apply in_or_app; right; now left|exact E]. }
          destruct E2 as (q & I & F'). assert (q = r) by (eapply U; eauto; apply SUB, in_or_app; [now left|right; now left]).
          subst q. congruence.
      + split.
        * intros F. exists r. split; [apply in_or_app; right; now left|exact F].
        * intros (q & I & F). apply in_app_or in I as [I|[<-|[]]]; [|exact F].
          assert (None = Some x) by (apply IH; eauto). discriminate. }
  apply G. auto.
Qed.
(** The order in which the roads are added does not matter to the roads and the bounding box. *)
Theorem C115_order_of_roads : forall huge build rs rs', no_add build -> distinct_ids (xrun build) rs -> Permutation rs rs' ->
  x_map_roads (complete build rs) = x_map_roads (complete build rs') /\ map_box huge (complete build rs) = map_box huge (complete build rs').
Proof.
  intros huge build rs rs' NA D P.
  assert (D' : distinct_ids (xrun build) rs').
  { destruct D as [ND LT]. split; [eapply Permutation_NoDup; [apply Permutation_map, P|exact ND]|].
    intros r I. apply LT. eapply Permutation_in; [symmetry; exact P|exact I]. }
  destruct (complete_roads _ NA _ D) as [S1 F1], (complete_roads _ NA _ D') as [S2 F2].
  assert (E : x_map_roads (complete build rs) = x_map_roads (complete build rs')).
  { apply m_ext; auto. intros k. destruct (m_find k (x_map_roads (complete build rs))) as [r|] eqn:E1.
    - symmetry. apply F2. apply F1 in E1 as [I E1]. split; [eapply Permutation_in; eauto|exact E1].
    - destruct (m_find k (x_map_roads (complete build rs'))) as [r|] eqn:E2; [|reflexivity].
      apply F2 in E2 as [I E2]. assert (m_find k (x_map_roads (complete build rs)) = Some r); [|congruence].
      apply F1. split; [eapply Permutation_in; [symmetry; exact P|exact I]|exact E2]. }
  split; [exact E|]. unfold map_box, map_points, section_lanes. rewrite E.
  destruct (complete_heap build rs) as [H1 H2], (complete_heap build rs') as [H3 H4]. now rewrite H1, H2, H3, H4.
Qed.

(* ------------------------------------------------------------------------- concrete cases *)
Definition lane_a : xlane := mkLane 1 1 [(0, 0); (10, 0)]%R.
Definition lane_b : xlane := mkLane 2 1 [(10, 0); (10, 5)]%R.
Definition lane_c : xlane := mkLane 3 (-1) [(0, 0); (-4, 20)]%R.
Definition toy_build : list xop :=
  [NewSection; NewRoad 7; AddLaneTo 0 lane_a; AddSectionTo 0 0; NewSection; NewRoad 8; AddLaneTo 1 lane_b; AddSectionTo 1 1].
Example complete_nonvacuous : no_add toy_build /\ distinct_ids (xrun toy_build) [1; 0]%nat
  /\ get_lane (complete toy_build [1; 0]%nat) 1 = Some lane_a /\ get_lane (complete toy_build [1; 0]%nat) 2 = Some lane_b
  /\ get_lane (complete toy_build [1; 0]%nat) 3 = None.
Proof.
  split; [intros r I; cbn in I; repeat (destruct I as [I|I]; [discriminate|]); exact I|].
  split; [split; [cbn; repeat constructor; cbn; intuition discriminate|intros r I; cbn in *; intuition lia]|].
  repeat split; reflexivity.
Qed.
(** Refuted expectation: "the lanes of a map are the lanes of its roads": a lane added to a section after its road was added is
    found through the road and counts for the bounding box, but GetLane does not find it; and the lanes of a road that was
    replaced under its id are still found. *)
Theorem C115_lanes_are_those_of_the_roads_refuted :
  (let st := xrun (toy_build ++ [AddRoad 0; AddLaneTo 0 lane_c]) in
   get_road st 7 = Some 0%nat /\ m_find 3 (road_lanes st 0) = Some lane_c /\ on_map st (-4, 20)%R /\ get_lane st 3 = None)
  /\ (let st := xrun (toy_build ++ [AddRoad 0; NewRoad 7; AddRoad 2]) in
   get_road st 7 = Some 2%nat /\ road_lanes st 2 = [] /\ (forall p, ~ on_map st p) /\ get_lane st 1 = Some lane_a).
Proof.
  split; cbv zeta; (split; [reflexivity|split; [reflexivity|split; [|reflexivity]]]).
  - exists 7%N, 0%nat, 0%nat, lane_c. split; [now left|]. split; [now left|]. split; [right; now left|right; now left].
  - intros p I. apply map_points_spec in I. exact I.
Qed.
Print Assumptions C115_road_sections.
Print Assumptions C115_new_road.
Print Assumptions C115_new_section.
Print Assumptions C115_section_lane.
Print Assumptions C115_road_lane.
Print Assumptions C115_get_road.
Print Assumptions C115_get_lane.
Print Assumptions C115_bounding_box.
Print Assumptions C115_complete_map.
