From Coq Require Import List NArith ZArith QArith Bool Arith Lia.
From Verif Require Import Model_Map Model_Roadgraph Model_RoadSearch Model_Intersection Spec_Roadgraph
  Spec_Roadgraph2 Spec_RoadSearch Model_Corridor Spec_Corridor
  Proof_Map Proof_Roadgraph Proof_Roadgraph2 Proof_Roadgraph3 Props_Roadgraph.
Import ListNotations.
Local Open Scope nat_scope.

(* ---------------------------------------------------------------- lists of roads *)
Lemma follows_cons ids x r r' : follows (x :: ids) r r' <-> (r = x /\ hd_error ids = Some r') \/ follows ids r r'.
Proof.
  split.
  - intros (pre & post & E). destruct pre as [|y pre]; cbn in E; inversion E; subst.
    + left. auto.
    + right. exists pre, post. reflexivity.
  - intros [(-> & H)|(pre & post & ->)].
    + destruct ids as [|y ids]; cbn in H; inversion H; subst. exists [], ids. reflexivity.
    + exists (x :: pre), post. reflexivity.
Qed.
Lemma follows_nil r r' : ~ follows [] r r'.
Proof. intros (pre & post & E). destruct pre; discriminate. Qed.
Lemma with_next_In ids r nr : In (r, Some nr) (with_next ids) <-> follows ids r nr.
Proof.
  induction ids as [|x ids IH]; cbn.
  - split; [intros []|intros H; now apply follows_nil in H].
  - rewrite follows_cons. split.
    + intros [E|H]; [inversion E; subst; auto|right; now apply IH].
    + intros [(-> & H)|H]; [left; now rewrite H|right; now apply IH].
Qed.
Lemma with_next_fst ids : map fst (with_next ids) = ids.
Proof. induction ids; cbn; congruence. Qed.
Lemma follows_in ids r r' : follows ids r r' -> In r ids /\ In r' ids.
Proof. intros (pre & post & ->). split; apply in_or_app; cbn; auto. Qed.

Lemma compress_cons a ids : compress (a :: ids) =
  match ids with b :: _ => if (a =? b)%N then compress ids else a :: compress ids | [] => [a] end.
Proof. destruct ids; reflexivity. Qed.
Lemma compress_head a ids : exists t, compress (a :: ids) = a :: t.
Proof.
  revert a. induction ids as [|b ids IH]; intros a.
  - exists []. reflexivity.
  - rewrite compress_cons. destruct (a =? b)%N eqn:E.
    + apply N.eqb_eq in E as ->. apply IH.
    + eauto.
Qed.
Lemma compress_follows ids r r' : follows ids r r' -> r <> r' -> follows (compress ids) r r'.
Proof.
  induction ids as [|a ids IH]; intros F Hn; [now apply follows_nil in F|].
  apply follows_cons in F as [(-> & H)|F].
  - destruct ids as [|b ids]; cbn in H; inversion H; subst. rewrite compress_cons.
    destruct (a =? r')%N eqn:E; [apply N.eqb_eq in E; congruence|].
    destruct (compress_head r' ids) as (t & ->). exists [], t. reflexivity.
  - rewrite compress_cons. specialize (IH F Hn). destruct ids as [|b ids]; [now apply follows_nil in F|].
    destruct (a =? b)%N; auto. apply follows_cons. auto.
Qed.
Lemma compress_In ids r : In r (compress ids) <-> In r ids.
Proof.
  induction ids as [|a ids IH]; [tauto|]. rewrite compress_cons. destruct ids as [|b ids]; [tauto|].
  destruct (a =? b)%N eqn:E.
  - apply N.eqb_eq in E as ->. rewrite IH. cbn. tauto.
  - cbn [In] in *. tauto.
Qed.

(* place of an element in a duplicate-free list *)
Fixpoint place (l : list N) (r : N) : nat :=
  match l with [] => 0 | x :: t => if (x =? r)%N then 0 else S (place t r) end.
Lemma place_le l r : place l r <= length l.
Proof. induction l; cbn; [lia|]. destruct (_ =? _)%N; lia. Qed.
Lemma place_follows l r r' : NoDup l -> follows l r r' -> place l r' = S (place l r).
Proof.
  induction l as [|x l IH]; intros ND F; [now apply follows_nil in F|].
  inversion ND; subst. apply follows_cons in F as [(-> & H)|F].
  - cbn. rewrite N.eqb_refl. destruct l as [|y l]; cbn in H; inversion H; subst.
    destruct (x =? r')%N eqn:E; [apply N.eqb_eq in E; subst; exfalso; apply H1; cbn; auto|].
    cbn. now rewrite N.eqb_refl.
  - cbn. destruct (follows_in _ _ _ F) as (A & B).
    destruct (x =? r)%N eqn:E; [apply N.eqb_eq in E; subst; contradiction|].
    destruct (x =? r')%N eqn:E'; [apply N.eqb_eq in E'; subst; contradiction|].
    f_equal. auto.
Qed.

(* ---------------------------------------------------------------- inserting folds *)
Lemma ofold_flat {A B : Type} (f : A -> B -> option A) ss : forall a,
  ofold (fun a s => ofold f s a) ss a = ofold f (concat ss) a.
Proof.
  induction ss as [|s ss IH]; intros a; cbn; auto.
  assert (E : forall l1 l2 a, ofold f (l1 ++ l2) a = match ofold f l1 a with Some a' => ofold f l2 a' | None => None end).
  { clear. induction l1 as [|x l1 IH]; intros; cbn; auto. destruct (f a x); auto. }
  rewrite E. destruct (ofold f s a); auto.
Qed.

Section Oins.
  Context {X V : Type} (key : X -> N) (f : X -> option V).
  Let step (acc : kmap V) (x : X) := option_map (fun c => m_insert (key x) c acc) (f x).
  Lemma oins_spec xs : (forall x y, In x xs -> In y xs -> key x = key y -> f x = f y) ->
    forall acc out, ofold step xs acc = Some out -> m_sorted acc ->
    m_sorted out /\ (forall x, In x xs -> f x <> None) /\
    forall k c, m_find k out = Some c <->
      (exists x, In x xs /\ key x = k /\ f x = Some c) \/ (~ In k (map key xs) /\ m_find k acc = Some c).
  Proof.
    induction xs as [|x xs IH]; intros Fn acc out E S.
    - cbn in E. inversion E; subst. split; auto. split; [intros ? []|]. intros k c. cbn. split.
      + auto.
      + intros [(? & [] & _)|(_ & H)]; auto.
    - cbn in E. unfold step at 1 in E. destruct (f x) as [v|] eqn:Fx; cbn in E; [|discriminate].
      assert (Fn' : forall x y, In x xs -> In y xs -> key x = key y -> f x = f y) by (intros; apply Fn; cbn; auto).
      destruct (IH Fn' _ _ E (m_insert_sorted _ _ _ S)) as (So & Tot & Sp). split; auto. split.
      { intros y [<-|H]; [congruence|auto]. }
      intros k c. rewrite Sp. split.
      + intros [(y & H & K & F)|(H & F)].
        * left. exists y. cbn. auto.
        * destruct (N.eq_dec k (key x)) as [->|D].
          -- rewrite m_find_insert_same in F. left. exists x. cbn. split; auto. split; congruence.
          -- rewrite m_find_insert_other in F by auto. right. split; auto. cbn. intros [e|e]; [congruence|auto].
      + intros [(y & H & K & F)|(H & F)].
        * destruct (in_dec N.eq_dec k (map key xs)) as [I|I].
          -- apply in_map_iff in I as (z & Kz & Iz). left. exists z. split; auto. split; auto.
             rewrite <- F. apply Fn; cbn; auto. congruence.
          -- right. split; auto. destruct H as [<-|H].
             ++ subst k. rewrite m_find_insert_same. congruence.
             ++ exfalso. apply I. subst k. now apply in_map.
        * cbn in H. right. split; [tauto|]. rewrite m_find_insert_other; auto.
  Qed.
  Lemma oins_total xs : (forall x, In x xs -> f x <> None) -> forall acc, exists out, ofold step xs acc = Some out.
  Proof.
    induction xs as [|x xs IH]; intros T acc; cbn; [eauto|]. unfold step at 1.
    destruct (f x) eqn:E; [|exfalso; apply (T x); cbn; auto]. apply IH. intros; apply T; cbn; auto.
  Qed.
End Oins.

Section Tables.
  Context {P : Type}.
  Implicit Types (m : xmap P) (g : graph P).

  (* the polygon a fresh corridor lane gets *)
  Definition poly_of g (l : xlane P) : list P :=
    if (l_pos l =? 0)%Z then []
    else match lane_polygon g (l_id l) with Some (Some p) => p | _ => [] end.

  Definition tbl m g (ids : list N) (rs : croads (P:=P)) : Prop :=
    m_sorted rs /\ (forall r, In r (map fst rs) <-> In r ids) /\
    (forall r ls, In (r, ls) rs -> m_sorted ls) /\
    (forall r id c, get_lane rs (r, id) = Some c ->
       In r ids /\ names m (r, id) (cl_lane c) /\ cl_polygon c = poly_of g (cl_lane c)) /\
    (forall r l, In r ids -> lane_of m r l -> exists c, get_lane rs (r, l_id l) = Some c /\ cl_lane c = l).

  Definition fresh (c : clane P) : Prop :=
    cl_next c = None /\ cl_left c = None /\ cl_right c = None /\ cl_lbound c = [] /\ cl_rbound c = [] /\ cl_center c = [].

  Lemma gen_lane_spec g l c : gen_lane g l = Some c -> cl_lane c = l /\ cl_polygon c = poly_of g l /\ fresh c.
  Proof.
    unfold gen_lane, poly_of. destruct (l_pos l =? 0)%Z.
    - intros E. inversion E; subst. cbn. repeat split; auto.
    - destruct (lane_polygon g (l_id l)) as [[p|]|]; intros E; inversion E; subst; cbn; repeat split; auto.
  Qed.

  Lemma concat_lane m r rd k l : map_ok m -> m_find r (m_roads m) = Some rd ->
    In (k, l) (concat (r_sections rd)) <-> lane_of m r l /\ k = l_id l.
  Proof.
    intros OK E. apply m_find_In in E as E'. split.
    - intros H. apply in_concat in H as (s & Hs & Hl).
      assert (S : section_of m r s) by (exists rd; auto).
      pose proof (ok_keys m OK r s k l S Hl) as ->. split; auto. exists s. split; auto.
    - intros ((s & (rd' & Hr & Hs) & Hl) & ->). apply (m_find_iff _ _ _ (ok_roads m OK)) in Hr.
      assert (rd' = rd) as -> by congruence. apply in_concat. eauto.
  Qed.

  Lemma gen_road_spec m g r ls : map_ok m -> gen_road m g r = Some ls ->
    m_sorted ls /\ (forall id c, m_find id ls = Some c -> exists l, names m (r, id) l /\ gen_lane g l = Some c) /\
    (forall l, lane_of m r l -> exists c, m_find (l_id l) ls = Some c /\ gen_lane g l = Some c).
  Proof.
    intros OK E. unfold gen_road in E. destruct (m_find r (m_roads m)) as [rd|] eqn:Er; [|discriminate].
    rewrite ofold_flat in E.
    apply (oins_spec (X:=N * xlane P) fst (fun kl => gen_lane g (snd kl))) in E as (S & T & Sp).
    - split; auto. split.
      + intros id c F. apply Sp in F as [([k l] & H & K & F)|(_ & F)]; [|discriminate]. cbn in K, F. subst k.
        apply (concat_lane m r rd) in H as (H & ->); auto. exists l. split; auto. split; auto.
      + intros l Hl. assert (I : In (l_id l, l) (concat (r_sections rd))) by (apply (concat_lane m r rd); auto).
        specialize (T _ I). cbn in T. destruct (gen_lane g l) as [c|] eqn:G; [|congruence].
        exists c. split; auto. apply Sp. left. exists (l_id l, l). auto.
    - intros [k1 l1] [k2 l2] H1 H2 K. cbn in K |- *.
      apply (concat_lane m r rd) in H1 as (H1 & ->); auto. apply (concat_lane m r rd) in H2 as (H2 & ->); auto.
      destruct (lane_id_inj m r r l1 l2 OK H1 H2 K) as (_ & ->). reflexivity.
    - constructor.
  Qed.

  Lemma gen_roads_spec m g ids rs : map_ok m -> gen_roads m g ids = Some rs ->
    tbl m g ids rs /\ forall p c, get_lane rs p = Some c -> fresh c.
  Proof.
    intros OK E. unfold gen_roads in E.
    apply (oins_spec (fun r => r) (gen_road m g)) in E as (S & T & Sp).
    2: { intros x y _ _ ->. reflexivity. }
    2: constructor.
    assert (Sp' : forall r ls, m_find r rs = Some ls <-> In r ids /\ gen_road m g r = Some ls).
    { intros r ls. rewrite Sp. split.
      - intros [(x & H & -> & F)|(_ & F)]; [auto|discriminate].
      - intros (H & F). left. exists r. auto. }
    clear Sp.
    assert (GL : forall r id c, get_lane rs (r, id) = Some c -> In r ids /\ exists l, names m (r, id) l /\ gen_lane g l = Some c).
    { intros r id c G. unfold get_lane in G. cbn in G. destruct (m_find r rs) as [ls|] eqn:Er; [|discriminate].
      apply Sp' in Er as (Hr & Er). split; auto. apply (gen_road_spec m g r ls OK Er). auto. }
    split; [split; [|split; [|split; [|split]]]|]; auto.
    - intros r. split.
      + intros H. apply in_map_iff in H as ([r' ls] & <- & H). apply (m_find_iff _ _ _ S) in H. apply Sp' in H. tauto.
      + intros H. specialize (T r H). destruct (gen_road m g r) as [ls|] eqn:Er; [|congruence].
        apply in_map_iff. exists (r, ls). split; auto. apply (m_find_iff _ _ _ S). apply Sp'. auto.
    - intros r ls H. apply (m_find_iff _ _ _ S) in H. apply Sp' in H as (_ & H). apply (gen_road_spec m g r ls OK H).
    - intros r id c G. destruct (GL _ _ _ G) as (Hr & l & Hn & Gl). destruct (gen_lane_spec _ _ _ Gl) as (-> & -> & _). auto.
    - intros r l Hr Hl. specialize (T r Hr). destruct (gen_road m g r) as [ls|] eqn:Er; [|congruence].
      destruct (gen_road_spec m g r ls OK Er) as (_ & _ & Tt). destruct (Tt l Hl) as (c & F & Gl).
      exists c. split; [|apply (gen_lane_spec _ _ _ Gl)]. unfold get_lane. cbn.
      assert (m_find r rs = Some ls) as -> by (apply Sp'; auto). auto.
    - intros [r id] c G. destruct (GL _ _ _ G) as (_ & l & _ & Gl). apply (gen_lane_spec _ _ _ Gl).
  Qed.
End Tables.

Section Linking.
  Context {P : Type}.
  Implicit Types (m : xmap P) (g : graph P) (L : line_ops P).

  Definition side_ref (r : N) (q : option (N * bool)) : option lane_ref :=
    match q with Some (x, true) => Some (r, x) | _ => None end.

  Definition dressed m L g (r : N) (c : clane P) : Prop :=
    let l := cl_lane c in
    cl_left c = side_ref r (left_lane g (l_id l) (l_dir l)) /\
    cl_right c = side_ref r (right_lane g (l_id l) (l_dir l)) /\
    cl_rbound c = l_line l /\
    ((exists i b, inner_neighbor g (l_id l) = Some (i, true) /\ names m (r, i) b /\
        cl_lbound c = l_line b /\ lo_center L (l_line b) (l_line l) = Some (cl_center c)) \/
     (inner_neighbor g (l_id l) = Some (0%N, false) /\ cl_lbound c = [] /\ cl_center c = [])).

  Definition next_ok m (dn : list (N * option N)) (r : N) (c : clane P) : Prop :=
    (forall r' id', cl_next c = Some (r', id') ->
       In (r, Some r') dn /\ exists b, names m (r', id') b /\ joined m (cl_lane c) b) /\
    (cl_next c = None -> forall r' b, In (r, Some r') dn -> lane_of m r' b -> ~ joined m (cl_lane c) b).

  Lemma dir_eqb_refl d : dir_eqb d d = true.
  Proof. destruct d; reflexivity. Qed.

  Lemma tbl_ref m g ids rs r id c : tbl m g ids rs -> In r ids -> names m (r, id) c -> lane_ref_to rs r id = Some (r, id).
  Proof.
    intros (_ & _ & _ & _ & T) Hr (Hl & E). cbn in Hl, E. subst id. destruct (T r c Hr Hl) as (x & G & _).
    unfold lane_ref_to. rewrite G. reflexivity.
  Qed.
  Lemma tbl_get m g ids rs r id l : map_ok m -> tbl m g ids rs -> In r ids -> names m (r, id) l ->
    exists c, get_lane rs (r, id) = Some c /\ cl_lane c = l.
  Proof.
    intros OK (_ & _ & _ & T1 & T) Hr (Hl & E). cbn in Hl, E. subst id. apply T; auto.
  Qed.

  (* the roadgraph answers for a lane of the map *)
  Lemma answers m g r l d : map_ok m -> generate m = Some g -> lane_of m r l ->
    (exists x f, left_lane g (l_id l) d = Some (x, f) /\ (f = true -> exists b, names m (r, x) b)) /\
    (exists x f, right_lane g (l_id l) d = Some (x, f) /\ (f = true -> exists b, names m (r, x) b)) /\
    left_boundary g (l_id l) (l_dir l) = inner_neighbor g (l_id l) /\
    right_boundary g (l_id l) (l_dir l) = Some (l_id l, true) /\
    ((exists i b, inner_neighbor g (l_id l) = Some (i, true) /\ names m (r, i) b) \/
     inner_neighbor g (l_id l) = Some (0%N, false)).
  Proof.
    intros OK E Hl. pose proof Hl as (s & Hs & Hi).
    destruct (C37_answers_stay_in_the_section m g r s l d OK (or_intror E) Hs Hi) as ((a & A1 & A2) & (b & B1 & B2)).
    destruct (generate_full m g OK E) as (NB & _).
    pose proof (base_lane_ptr m g r l OK (proj1 NB) Hl) as Pt.
    split; [|split; [|split; [|split]]].
    - exists (fst a), (snd a). rewrite A1. split; [now destruct a|]. intros F. destruct (A2 F) as (x & X1 & X2).
      exists x. split; [exists s; auto|auto].
    - exists (fst b), (snd b). rewrite B1. split; [now destruct b|]. intros F. destruct (B2 F) as (x & X1 & X2).
      exists x. split; [exists s; auto|auto].
    - unfold left_boundary. now rewrite Pt, dir_eqb_refl.
    - unfold right_boundary. now rewrite Pt, dir_eqb_refl.
    - destruct (inner_spec m g r s l OK NB Hs Hi) as (I1 & I2).
      destruct (Z.eq_dec (l_pos l) 0) as [Z0|Z0]; [right; auto|].
      destruct (pos_lane m r s (inward (l_pos l)) OK Hs) as [(x & Hx & Ex)|No].
      + left. exists (l_id x), x. split; [auto|]. split; [exists s; auto|auto].
      + right. auto.
  Qed.

  Lemma link_lane_spec m g L ids rs r nr id c c' :
    map_ok m -> generate m = Some g -> tbl m g ids rs -> In r ids -> (forall r', nr = Some r' -> In r' ids) ->
    get_lane rs (r, id) = Some c -> fresh c \/ dressed m L g r c ->
    link_lane L g rs r nr id c = Some c' ->
    cl_lane c' = cl_lane c /\ cl_polygon c' = cl_polygon c /\ dressed m L g r c' /\
    forall dn, next_ok m dn r c -> next_ok m (dn ++ [(r, nr)]) r c'.
  Proof.
    intros OK E T Hr Hnr G FD Lk. pose proof T as (_ & _ & _ & T1 & _).
    destruct (T1 r id c G) as (_ & (Hl & Eid) & _). cbn in Hl, Eid. subst id.
    set (l := cl_lane c) in *.
    destruct (answers m g r l (l_dir l) OK E Hl) as ((lx & lf & L1 & L2) & (rx & rf & R1 & R2) & BL & BR & IN).
    unfold link_lane in Lk. fold l in Lk. rewrite L1, R1, BL, BR in Lk.
    destruct (C39_next_lane m g [match nr with Some r' => r' | None => r end] r l OK E Hl) as [NX|NX].
    - destruct NX as (b & rb & Hb & Inb & J & NX). rewrite NX in Lk. cbn in Inb. destruct Inb as [<-|[]].
      assert (Dr : forall nxt lb ce c'0,
        c'0 = mkCL l (cl_polygon c) nxt (if lf then lane_ref_to rs r lx else cl_left c) (if rf then lane_ref_to rs r rx else cl_right c) lb (l_line l) ce ->
        ((exists i b, inner_neighbor g (l_id l) = Some (i, true) /\ names m (r, i) b /\ lb = l_line b /\ lo_center L (l_line b) (l_line l) = Some ce) \/
         (inner_neighbor g (l_id l) = Some (0%N, false) /\ lb = [] /\ ce = [])) -> dressed m L g r c'0).
      { intros nxt lb ce c'0 -> D. unfold dressed. cbn. rewrite L1, R1. split; [|split; [|split]]; auto.
        - destruct lf; cbn.
          + destruct (L2 eq_refl) as (x & Hx). eapply tbl_ref; eauto.
          + destruct FD as [(_ & F & _)|(F & _)]; [exact F|]. rewrite F. fold l. now rewrite L1.
        - destruct rf; cbn.
          + destruct (R2 eq_refl) as (x & Hx). eapply tbl_ref; eauto.
          + destruct FD as [(_ & _ & F & _)|(_ & F & _)]; [exact F|]. rewrite F. fold l. now rewrite R1. }
      assert (Own : get_lane rs (r, l_id l) = Some c) by exact G. rewrite Own in Lk. cbn in Lk.
      assert (Nx : forall c'0, cl_lane c'0 = l ->
         cl_next c'0 = match nr with Some r' => lane_ref_to rs r' (l_id b) | None => cl_next c end ->
         forall dn, next_ok m dn r c -> next_ok m (dn ++ [(r, nr)]) r c'0).
      { intros c'0 El En dn (N1 & N2). unfold next_ok. rewrite El, En. destruct nr as [r'|].
        - assert (Rf : lane_ref_to rs r' (l_id b) = Some (r', l_id b)) by (apply (tbl_ref m g ids rs r' (l_id b) b); auto; split; auto).
          rewrite Rf. split; [|discriminate]. intros r0 id0 E0. inversion E0; subst. split.
          + apply in_or_app. right. cbn. auto.
          + exists b. split; [split; auto|exact J].
        - split.
          + intros r0 id0 E0. destruct (N1 r0 id0 E0) as (A & B). split; auto. apply in_or_app; auto.
          + intros E0 r0 b0 I. apply in_app_or in I as [I|I]; [now apply N2|]. cbn in I. destruct I as [I|[]]; inversion I. }
      destruct IN as [(i & bi & I1 & I2)|I1]; rewrite I1 in Lk.
      + destruct (tbl_get m g ids rs r i bi OK T Hr I2) as (cb & Gb & Eb). rewrite Gb in Lk. cbn in Lk. rewrite Eb in Lk; fold l in Lk.
        destruct (lo_center L (l_line bi) (l_line l)) as [ce|] eqn:Ce; cbn in Lk; [|discriminate].
        inversion Lk; subst c'; clear Lk. split; [reflexivity|]. split; [reflexivity|]. split.
        * eapply Dr; [reflexivity|]. left. exists i, bi. auto.
        * apply Nx; [reflexivity|]. destruct nr; reflexivity.
      + cbn in Lk. inversion Lk; subst c'; clear Lk. split; [reflexivity|]. split; [reflexivity|]. split.
        * eapply Dr; [reflexivity|]. right.
          destruct FD as [(_ & _ & _ & F1 & _ & F2)|(_ & _ & _ & [(i & b0 & F & _)|(_ & F1 & F2)])]; [auto| |auto].
          fold l in F. congruence.
        * apply Nx; [reflexivity|]. destruct nr; reflexivity.
    - destruct NX as (NX & No). rewrite NX in Lk.
      assert (Dr : forall nxt lb ce c'0,
        c'0 = mkCL l (cl_polygon c) nxt (if lf then lane_ref_to rs r lx else cl_left c) (if rf then lane_ref_to rs r rx else cl_right c) lb (l_line l) ce ->
        ((exists i b, inner_neighbor g (l_id l) = Some (i, true) /\ names m (r, i) b /\ lb = l_line b /\ lo_center L (l_line b) (l_line l) = Some ce) \/
         (inner_neighbor g (l_id l) = Some (0%N, false) /\ lb = [] /\ ce = [])) -> dressed m L g r c'0).
      { intros nxt lb ce c'0 -> D. unfold dressed. cbn. rewrite L1, R1. split; [|split; [|split]]; auto.
        - destruct lf; cbn.
          + destruct (L2 eq_refl) as (x & Hx). eapply tbl_ref; eauto.
          + destruct FD as [(_ & F & _)|(F & _)]; [exact F|]. rewrite F. fold l. now rewrite L1.
        - destruct rf; cbn.
          + destruct (R2 eq_refl) as (x & Hx). eapply tbl_ref; eauto.
          + destruct FD as [(_ & _ & F & _)|(_ & F & _)]; [exact F|]. rewrite F. fold l. now rewrite R1. }
      assert (Own : get_lane rs (r, l_id l) = Some c) by exact G. rewrite Own in Lk. cbn in Lk.
      assert (Nx : forall c'0, cl_lane c'0 = l -> cl_next c'0 = cl_next c ->
         forall dn, next_ok m dn r c -> next_ok m (dn ++ [(r, nr)]) r c'0).
      { intros c'0 El En dn (N1 & N2). unfold next_ok. rewrite El, En. split.
        - intros r0 id0 E0. destruct (N1 r0 id0 E0) as (A & B). split; auto. apply in_or_app; auto.
        - intros E0 r0 b0 I Hb. apply in_app_or in I as [I|I]; [now apply (N2 E0 r0)|]. cbn in I.
          destruct I as [I|[]]; inversion I; subst nr. apply (No b0 r0 Hb). cbn. auto. }
      destruct IN as [(i & bi & I1 & I2)|I1]; rewrite I1 in Lk.
      + destruct (tbl_get m g ids rs r i bi OK T Hr I2) as (cb & Gb & Eb). rewrite Gb in Lk. cbn in Lk. rewrite Eb in Lk; fold l in Lk.
        destruct (lo_center L (l_line bi) (l_line l)) as [ce|] eqn:Ce; cbn in Lk; [|discriminate].
        inversion Lk; subst c'; clear Lk. split; [reflexivity|]. split; [reflexivity|]. split.
        * eapply Dr; [reflexivity|]. left. exists i, bi. auto.
        * apply Nx; [reflexivity|]. destruct nr; reflexivity.
      + cbn in Lk. inversion Lk; subst c'; clear Lk. split; [reflexivity|]. split; [reflexivity|]. split.
        * eapply Dr; [reflexivity|]. right.
          destruct FD as [(_ & _ & _ & F1 & _ & F2)|(_ & _ & _ & [(i & b0 & F & _)|(_ & F1 & F2)])]; [auto| |auto].
          fold l in F. congruence.
        * apply Nx; [reflexivity|]. destruct nr; reflexivity.
  Qed.

  Lemma link_lane_total m g L ids rs r nr id c :
    map_ok m -> generate m = Some g -> tbl m g ids rs -> In r ids ->
    get_lane rs (r, id) = Some c -> (forall l, lane_of m r l -> l_line l <> []) -> lines_ok L ->
    link_lane L g rs r nr id c <> None.
  Proof.
    intros OK E T Hr G Ln (_ & LC & _). pose proof T as (_ & _ & _ & T1 & _).
    destruct (T1 r id c G) as (_ & (Hl & Eid) & _). cbn in Hl, Eid. subst id.
    set (l := cl_lane c) in *.
    destruct (answers m g r l (l_dir l) OK E Hl) as ((lx & lf & L1 & L2) & (rx & rf & R1 & R2) & BL & BR & IN).
    unfold link_lane. fold l. rewrite L1, R1, BL, BR.
    assert (exists x f, next_lane g [match nr with Some r' => r' | None => r end] (l_id l) = Some (x, f)) as (x & f & ->).
    { destruct (C39_next_lane m g [match nr with Some r' => r' | None => r end] r l OK E Hl) as [(b & rb & _ & _ & _ & N)|(N & _)]; eauto. }
    assert (Own : get_lane rs (r, l_id l) = Some c) by exact G. rewrite Own. cbn.
    destruct IN as [(i & bi & I1 & I2)|I1]; rewrite I1.
    - destruct (tbl_get m g ids rs r i bi OK T Hr I2) as (cb & Gb & Eb). rewrite Gb. cbn. rewrite Eb; fold l.
      destruct (LC (l_line bi) (l_line l)) as (ce & -> & _); [apply Ln; apply I2|apply Ln; auto|]. cbn. discriminate.
    - cbn. discriminate.
  Qed.

  Definition linkinv m L g ids dn (rs : croads) : Prop :=
    tbl m g ids rs /\
    forall r id c, get_lane rs (r, id) = Some c ->
      (In r (map fst dn) -> dressed m L g r c) /\ (~ In r (map fst dn) -> fresh c) /\ next_ok m dn r c.

  Lemma get_lane_insert rs r ls p : get_lane (m_insert r ls rs) p = (if (fst p =? r)%N then m_find (snd p) ls else get_lane (P:=P) rs p).
  Proof.
    unfold get_lane. destruct (N.eqb_spec (fst p) r) as [->|D].
    - now rewrite m_find_insert_same.
    - now rewrite m_find_insert_other by auto.
  Qed.

  Lemma link_step m L g ids dn rs r nr ls ls' :
    map_ok m -> generate m = Some g -> linkinv m L g ids dn rs -> In r ids -> (forall r', nr = Some r' -> In r' ids) ->
    m_find r rs = Some ls -> link_lanes L g rs r nr ls = Some ls' ->
    linkinv m L g ids (dn ++ [(r, nr)]) (m_insert r ls' rs).
  Proof.
    intros OK E (T & I) Hr Hnr Fr Lk. pose proof T as (S & D & Ss & T1 & T2).
    assert (Sl : m_sorted ls) by (apply (Ss r ls); apply (m_find_iff _ _ _ S); auto).
    unfold link_lanes in Lk.
    apply (oins_spec (X:=N * clane P) fst (fun kc => link_lane L g rs r nr (fst kc) (snd kc))) in Lk as (S' & Tt & Sp).
    2: { intros [k1 c1] [k2 c2] H1 H2 K. cbn in K. subst k2. apply (m_find_iff _ _ _ Sl) in H1, H2.
         assert (c1 = c2) as -> by congruence. reflexivity. }
    2: constructor.
    assert (GL : forall id c, m_find id ls = Some c <-> get_lane rs (r, id) = Some c).
    { intros id c. unfold get_lane. cbn. now rewrite Fr. }
    assert (Sp' : forall id c', m_find id ls' = Some c' <-> exists c, get_lane rs (r, id) = Some c /\ link_lane L g rs r nr id c = Some c').
    { intros id c'. rewrite Sp. split.
      - intros [([k c] & H & K & F)|(_ & F)]; [|discriminate]. cbn in K, F. subst k. apply (m_find_iff _ _ _ Sl) in H.
        exists c. split; auto. now apply GL.
      - intros (c & G & F). left. exists (id, c). split; auto. apply (m_find_iff _ _ _ Sl). now apply GL. }
    assert (FD : forall id c, get_lane rs (r, id) = Some c -> fresh c \/ dressed m L g r c).
    { intros id c G. destruct (I r id c G) as (I1 & I2 & _). destruct (in_dec N.eq_dec r (map fst dn)); auto. }
    assert (Ch : forall r0 id c', get_lane (m_insert r ls' rs) (r0, id) = Some c' ->
      exists c, get_lane rs (r0, id) = Some c /\ cl_lane c' = cl_lane c /\ cl_polygon c' = cl_polygon c /\
        ((r0 = r /\ link_lane L g rs r nr id c = Some c') \/ (r0 <> r /\ c' = c))).
    { intros r0 id c' G. rewrite get_lane_insert in G. cbn in G. destruct (N.eqb_spec r0 r) as [->|N0].
      - apply Sp' in G as (c & G & F). exists c. destruct (link_lane_spec m g L ids rs r nr id c c' OK E T Hr Hnr G (FD id c G) F) as (A & B & _). auto 10.
      - exists c'. auto 10. }
    split.
    - split; [now apply m_insert_sorted|]. split; [|split; [|split]].
      + intros r0. rewrite <- D. split.
        * intros H. apply in_map_iff in H as ([k v] & <- & H). apply m_insert_In_keys in H as [H|H].
          -- inversion H; subst. cbn. apply in_map_iff. exists (r, ls). split; auto. apply (m_find_iff _ _ _ S). auto.
          -- now apply (in_map fst) in H.
        * intros H. apply in_map_iff in H as ([k v] & <- & H). cbn. apply (m_find_iff _ _ _ S) in H.
          destruct (N.eq_dec k r) as [->|N0].
          -- apply (in_map fst _ (r, ls')). apply m_find_In. apply m_find_insert_same.
          -- apply (in_map fst _ (k, v)). apply m_find_In. now rewrite m_find_insert_other.
      + intros r0 ls0 H. apply m_insert_In_keys in H as [H|H]; [inversion H; subst; auto|eauto].
      + intros r0 id c' G. destruct (Ch r0 id c' G) as (c & Gc & El & Ep & _). destruct (T1 r0 id c Gc) as (A & B & C).
        rewrite El, Ep. auto.
      + intros r0 l H0 Hl. destruct (T2 r0 l H0 Hl) as (c & G & El). rewrite get_lane_insert. cbn.
        destruct (N.eqb_spec r0 r) as [->|N0]; [|eauto].
        assert (link_lane L g rs r nr (l_id l) c <> None) as Nn.
        { apply (Tt (l_id l, c)). apply (m_find_iff _ _ _ Sl). now apply GL. }
        destruct (link_lane L g rs r nr (l_id l) c) as [c'|] eqn:F; [|congruence].
        exists c'. split; [apply Sp'; eauto|].
        destruct (link_lane_spec m g L ids rs r nr (l_id l) c c' OK E T Hr Hnr G (FD _ _ G) F) as (A & _). congruence.
    - intros r0 id c' G. destruct (Ch r0 id c' G) as (c & Gc & El & Ep & [(-> & F)|(N0 & ->)]).
      + destruct (link_lane_spec m g L ids rs r nr id c c' OK E T Hr Hnr Gc (FD _ _ Gc) F) as (_ & _ & Dr & Nx).
        split; [auto|]. split.
        * intros H. exfalso. apply H. rewrite map_app. apply in_or_app. right. cbn. auto.
        * apply Nx. apply (I r id c Gc).
      + destruct (I r0 id c Gc) as (I1 & I2 & (I3 & I4)). rewrite map_app. split; [|split; [|split]].
        * intros H. apply in_app_or in H as [H|H]; auto. cbn in H. destruct H as [H|[]]. congruence.
        * intros H. apply I2. intros H'. apply H. apply in_or_app; auto.
        * intros r' id' En. destruct (I3 r' id' En) as (A & B). split; auto. apply in_or_app; auto.
        * intros En r' b H. apply in_app_or in H as [H|H]; [now apply I4|]. cbn in H. destruct H as [H|[]]. congruence.
  Qed.

  Lemma link_roads_spec m L g ids rs0 rs : map_ok m -> generate m = Some g ->
    gen_roads m g ids = Some rs0 -> link_roads L g ids rs0 = Some rs -> linkinv m L g ids (with_next ids) rs.
  Proof.
    intros OK E G Lk. destruct (gen_roads_spec m g ids rs0 OK G) as (T & Fr).
    assert (A : forall todo dn rs1 rs2, (forall r nr, In (r, nr) todo -> In r ids /\ forall r', nr = Some r' -> In r' ids) ->
      linkinv m L g ids dn rs1 ->
      ofold (fun rs rn => match m_find (fst rn) rs with None => None
         | Some ls => option_map (fun ls' => m_insert (fst rn) ls' rs) (link_lanes L g rs (fst rn) (snd rn) ls) end) todo rs1 = Some rs2 ->
      linkinv m L g ids (dn ++ todo) rs2).
    { induction todo as [|[r nr] todo IH]; intros dn rs1 rs2 Hin I F.
      - cbn in F. inversion F; subst. now rewrite app_nil_r.
      - cbn in F. destruct (m_find r rs1) as [ls|] eqn:Fr1; [|discriminate].
        destruct (link_lanes L g rs1 r nr ls) as [ls'|] eqn:Fl; cbn in F; [|discriminate].
        replace (dn ++ (r, nr) :: todo) with ((dn ++ [(r, nr)]) ++ todo) by (rewrite <- app_assoc; reflexivity).
        apply IH with (rs1 := m_insert r ls' rs1); auto.
        + intros; apply Hin; cbn; auto.
        + destruct (Hin r nr); [cbn; auto|]. eapply link_step; eauto. }
    apply (A (with_next ids) [] rs0 rs); auto.
    - intros r nr H. split.
      + rewrite <- (with_next_fst ids). now apply (in_map fst) in H.
      + intros r' ->. apply with_next_In in H. apply follows_in in H. tauto.
    - split; auto. intros r id c Gc. split; [intros []|]. split; [eauto|].
      destruct (Fr (r, id) c Gc) as (F & _). split; [congruence|]. intros _ r' b [].
  Qed.

  Lemma link_roads_total m L g ids rs0 : map_ok m -> generate m = Some g ->
    gen_roads m g ids = Some rs0 -> lines_ok L -> (forall r l, In r ids -> lane_of m r l -> l_line l <> []) ->
    exists rs, link_roads L g ids rs0 = Some rs.
  Proof.
    intros OK E G LO Ln. destruct (gen_roads_spec m g ids rs0 OK G) as (T & Fr).
    assert (A : forall todo dn rs1, (forall r nr, In (r, nr) todo -> In r ids /\ forall r', nr = Some r' -> In r' ids) ->
      linkinv m L g ids dn rs1 ->
      exists rs2, ofold (fun rs rn => match m_find (fst rn) rs with None => None
         | Some ls => option_map (fun ls' => m_insert (fst rn) ls' rs) (link_lanes L g rs (fst rn) (snd rn) ls) end) todo rs1 = Some rs2).
    { induction todo as [|[r nr] todo IH]; intros dn rs1 Hin I; cbn; [eauto|].
      destruct (Hin r nr) as (Hr & Hnr); [cbn; auto|].
      pose proof I as ((S & D & Ss & T1 & _) & _).
      destruct (m_find r rs1) as [ls|] eqn:Fr1.
      2: { exfalso. apply (proj2 (D r)) in Hr. now apply m_find_None_notin in Fr1. }
      assert (Sl : m_sorted ls) by (apply (Ss r ls); apply (m_find_iff _ _ _ S); auto).
      destruct (oins_total (X:=N * clane P) fst (fun kc => link_lane L g rs1 r nr (fst kc) (snd kc)) ls) with (acc := @nil (N * clane P)) as (ls' & Fl).
      { intros [k c] H. cbn. apply (m_find_iff _ _ _ Sl) in H.
        apply (link_lane_total m g L ids rs1 r nr k c); auto; [apply I|unfold get_lane; cbn; now rewrite Fr1|eauto]. }
      fold (link_lanes L g rs1 r nr ls) in Fl. unfold link_lanes in *. rewrite Fl. cbn.
      apply (IH (dn ++ [(r, nr)])).
      - intros; apply Hin; cbn; auto.
      - eapply link_step; eauto. }
    apply (A (with_next ids) []).
    - intros r nr H. split.
      + rewrite <- (with_next_fst ids). now apply (in_map fst) in H.
      + intros r' ->. apply with_next_In in H. apply follows_in in H. tauto.
    - split; auto. intros r id c Gc. split; [intros []|]. split; [eauto|].
      destruct (Fr (r, id) c Gc) as (F & _). split; [congruence|]. intros _ r' b [].
  Qed.
End Linking.
