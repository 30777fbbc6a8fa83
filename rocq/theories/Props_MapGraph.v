(** C121: reading the map's graph. *)
From Coq Require Import List NArith ZArith Bool Arith Lia.
From Verif Require Import Model_Map Model_Roadgraph Model_RoadSearch Spec_Roadgraph Spec_Roadgraph2 Spec_RoadSearch Proof_Map Proof_Roadgraph Proof_Roadgraph2
  Proof_Roadgraph3 Proof_RoadSearch Proof_RoadSearch2 Props_Roadgraph Props_RoadSearch Model_MapGraph Toy_Map.
Import ListNotations.

(* ------------------------------------------------------------------ *)
(** * Specification *)

Section Spec.
  Context {P : Type}.
  (** Edge [d] of the graph leads from [u] to [v]. *)
  Definition joins (g : graph P) (d u v : nat) : Prop := exists e, get_edge g d = Some e /\ e_src e = u /\ e_dst e = v.
  (** No two edges have the same start and the same end. *)
  Definition no_parallel_edges (g : graph P) : Prop := forall d d' u v, joins g d u v -> joins g d' u v -> d = d'.
  (** The lane on the inner side of [l] in its section, [None] if there is none. *)
  Definition inner_lane (s : section P) (l : xlane P) (o : option (xlane P)) : Prop :=
    match o with
    | Some i => in_section i s /\ l_pos l <> 0%Z /\ l_pos i = inward (l_pos l)
    | None => l_pos l = 0%Z \/ forall b, in_section b s -> l_pos b <> inward (l_pos l)
    end.
End Spec.

(* ------------------------------------------------------------------ *)
(** * Edges *)
Lemma nth_error_ext {A} : forall l k : list A, (forall i, nth_error l i = nth_error k i) -> l = k.
Proof.
  induction l as [|x l IH]; intros [|y k] H; [reflexivity|specialize (H 0); discriminate|specialize (H 0); discriminate|].
  pose proof (H 0) as E. injection E as <-. f_equal. apply IH. intros i. exact (H (S i)).
Qed.
Section Edges.
  Context {P : Type}.
  Implicit Types g : graph P.

  Lemma edge_from_spec u v : forall es k, match edge_from k es u v with
    | Some d => exists e, k <= d /\ nth_error es (d - k) = Some e /\ e_src e = u /\ e_dst e = v /\
        forall j e', j < d - k -> nth_error es j = Some e' -> ~ (e_src e' = u /\ e_dst e' = v)
    | None => forall e, In e es -> ~ (e_src e = u /\ e_dst e = v)
    end.
  Proof.
    induction es as [|e r IH]; intros k; cbn [edge_from]; [intros e []|].
    destruct (Nat.eqb_spec (e_src e) u) as [U|U]; destruct (Nat.eqb_spec (e_dst e) v) as [V|V]; cbn [andb].
    { exists e. rewrite Nat.sub_diag. repeat split; auto. intros j e' L. lia. }
    all: specialize (IH (S k)); destruct (edge_from (S k) r u v) as [d|];
      [destruct IH as (e0 & L & N & A & B & F); exists e0; replace (d - k) with (S (d - S k)) by lia;
       split; [lia|]; split; [exact N|]; split; [exact A|]; split; [exact B|];
       intros j e' Lj Nj; destruct j as [|j]; [injection Nj as <-; tauto|apply (F j e'); [lia|exact Nj]]
      |intros e' [<-|I]; [tauto|exact (IH e' I)]].
  Qed.

  (** GetEdgeDescr(u, v): the first edge inserted from u to v; of no edge when there is none. *)
  Theorem C121_edge_descr : forall g u v,
    (forall d, get_edge_descr g u v = Some d <-> joins g d u v /\ forall d', d' < d -> ~ joins g d' u v) /\
    (get_edge_descr g u v = None <-> forall d, ~ joins g d u v).
  Proof.
    intros g u v. unfold get_edge_descr. pose proof (edge_from_spec u v (g_e g) 0) as H.
    destruct (edge_from 0 (g_e g) u v) as [d|].
    - destruct H as (e & _ & N & A & B & F). rewrite Nat.sub_0_r in *.
      assert (J : joins g d u v) by (exists e; auto).
      assert (FJ : forall d', d' < d -> ~ joins g d' u v) by (intros d' L (e' & N' & A' & B'); exact (F d' e' L N' (conj A' B'))).
      split; [|split; [discriminate|intros X; exfalso; exact (X d J)]].
      intros d0. split; [intros X; injection X as <-; auto|]. intros (J0 & F0). f_equal.
      destruct (Nat.lt_trichotomy d d0) as [L|[L|L]]; [exfalso; exact (F0 d L J)|exact L|exfalso; exact (FJ d0 L J0)].
    - assert (X : forall d, ~ joins g d u v) by (intros d (e & N & A & B); exact (H e (nth_error_In _ _ N) (conj A B))).
      split; [|split; auto]. intros d. split; [discriminate|]. intros (J & _). exfalso. exact (X d J).
  Qed.

  Lemma descr_of g i e : nth_error (g_e g) i = Some e ->
    exists d, get_edge_descr g (e_src e) (e_dst e) = Some d /\ d <= i /\ joins g d (e_src e) (e_dst e) /\ forall d', d' < d -> ~ joins g d' (e_src e) (e_dst e).
  Proof.
    intros N. assert (J : joins g i (e_src e) (e_dst e)) by (exists e; auto). destruct (C121_edge_descr g (e_src e) (e_dst e)) as [A B].
    destruct (get_edge_descr g (e_src e) (e_dst e)) as [d|]; [|exfalso; exact (proj1 B eq_refl i J)].
    destruct (proj1 (A d) eq_refl) as [J1 F1]. exists d. repeat split; auto. destruct (le_lt_dec d i) as [L|L]; [exact L|]. exfalso. exact (F1 i L J).
  Qed.

  (** GetEdges: as many edges as there are, each with the ends of the edge in its place - but it is the first edge
      between these ends. *)
  Theorem C121_edges : forall g, length (get_edges g) = length (g_e g) /\
    forall i e, get_edge g i = Some e -> exists d, nth_error (get_edges g) i = Some (Some d) /\ joins g d (e_src e) (e_dst e) /\
      forall d', joins g d' (e_src e) (e_dst e) -> d <= d'.
  Proof.
    intros g. split; [apply map_length|]. intros i e N. destruct (descr_of g i e N) as (d & E & _ & J & F). exists d.
    split; [unfold get_edges; unfold get_edge in N; rewrite nth_error_map, N; cbn; now rewrite E|]. split; [exact J|].
    intros d' J'. destruct (le_lt_dec d d') as [L|L]; [exact L|]. exfalso. exact (F d' L J').
  Qed.
  (** Every edge is listed, in its place, exactly when there are no parallel edges. *)
  Theorem C121_all_edges_listed : forall g, get_edges g = map Some (seq 0 (length (g_e g))) <-> no_parallel_edges g.
  Proof.
    intros g. destruct (C121_edges g) as [LN SP]. split.
    - intros E. assert (X : forall d u v, joins g d u v -> forall d', joins g d' u v -> d <= d').
      { intros d u v (e & N & A & B) d' J'. destruct (SP d e N) as (d0 & N0 & _ & M). rewrite E, nth_error_map in N0.
        assert (L : d < length (g_e g)) by (apply nth_error_Some; unfold get_edge in N; rewrite N; discriminate).
        rewrite (nth_error_nth' _ 0) in N0 by (rewrite seq_length; exact L). rewrite seq_nth in N0 by exact L. cbn in N0. injection N0 as <-.
        apply M. now rewrite A, B. }
      intros d d' u v J J'. apply Nat.le_antisymm; eauto.
    - intros NP. apply nth_error_ext. intros i. destruct (le_lt_dec (length (g_e g)) i) as [L|L].
      + rewrite (proj2 (nth_error_None _ _)) by (rewrite LN; exact L). symmetry. apply nth_error_None. rewrite map_length, seq_length. exact L.
      + destruct (nth_error (g_e g) i) as [e|] eqn:N; [|apply nth_error_None in N; lia].
        destruct (SP i e N) as (d & Nd & J & _). rewrite Nd, nth_error_map, (nth_error_nth' _ 0) by (rewrite seq_length; exact L).
        rewrite seq_nth by exact L. cbn. do 2 f_equal. apply (NP d i (e_src e) (e_dst e) J). exists e. auto.
  Qed.
  (** Of parallel edges the first is listed for each, the others never. *)
  Theorem C121_parallel_edges : forall g d d' u v, joins g d u v -> joins g d' u v -> d < d' ->
    ~ In (Some d') (get_edges g) /\ nth_error (get_edges g) d = nth_error (get_edges g) d' /\ ~ NoDup (get_edges g).
  Proof.
    intros g d d' u v (e & N & A & B) (e' & N' & A' & B') L.
    assert (EQ : nth_error (get_edges g) d = nth_error (get_edges g) d').
    { unfold get_edges. unfold get_edge in N, N'. rewrite !nth_error_map, N, N'. cbn. now rewrite A, B, A', B'. }
    assert (LD : d < length (get_edges g)) by (unfold get_edges; rewrite map_length; apply nth_error_Some; unfold get_edge in N; rewrite N; discriminate).
    split; [|split; [exact EQ|]].
    - intros I. unfold get_edges in I. apply in_map_iff in I. destruct I as (x & E & _). apply (proj1 (C121_edge_descr g (e_src x) (e_dst x))) in E.
      destruct E as ((e0 & N0 & A0 & B0) & F). assert (e0 = e') as -> by congruence. apply (F d L). exists e. repeat split; congruence.
    - intros ND. pose proof (proj1 (NoDup_nth_error _) ND d d' LD EQ). lia.
  Qed.

  (** The edges out of a vertex and the vertices they lead to. *)
  Theorem C121_out_edges : forall g v, (v < length (g_v g) -> exists ns ds, get_next_vertices g v = Some ns /\ get_out_edges g v = Some ds /\
      length ns = length ds /\ (forall n, In n ns <-> exists d, joins g d v n) /\
      (forall i n, nth_error ns i = Some n -> exists d, nth_error ds i = Some (Some d) /\ joins g d v n /\ forall d', joins g d' v n -> d <= d') /\
      (no_parallel_edges g -> forall d, In (Some d) ds <-> exists n, joins g d v n)) /\
    (length (g_v g) <= v -> get_next_vertices g v = None /\ get_out_edges g v = None).
  Proof.
    intros g v. unfold get_next_vertices, get_out_edges. split; intros L; [|destruct (Nat.ltb_spec v (length (g_v g))); [lia|auto]].
    destruct (Nat.ltb_spec v (length (g_v g))) as [_|]; [|lia]. eexists _, _. split; [reflexivity|]. split; [reflexivity|].
    split; [now rewrite !map_length|].
    assert (OE : forall e, In e (out_edges g v) <-> exists d, get_edge g d = Some e /\ e_src e = v).
    { intros e. unfold out_edges. rewrite filter_In, Nat.eqb_eq. split; [intros [I E]; apply In_nth_error in I; destruct I as (d & I); eauto|].
      intros (d & N & E). split; [exact (nth_error_In _ _ N)|exact E]. }
    split; [|split].
    - intros n. rewrite in_map_iff. split.
      + intros (e & <- & I). apply OE in I. destruct I as (d & N & E). exists d, e. auto.
      + intros (d & e & N & E1 & E2). exists e. split; [exact E2|]. apply OE. eauto.
    - intros i n N. rewrite nth_error_map in N. destruct (nth_error (out_edges g v) i) as [e|] eqn:Ni; [|discriminate]. injection N as <-.
      rewrite nth_error_map, Ni. cbn. pose proof (nth_error_In _ _ Ni) as I. apply OE in I. destruct I as (k & Nk & EV).
      destruct (descr_of g k e Nk) as (d & E & _ & J & F). exists d. rewrite E. split; [reflexivity|]. rewrite EV in J, F. split; [exact J|].
      intros d' J'. destruct (le_lt_dec d d') as [X|X]; [exact X|]. exfalso. exact (F d' X J').
    - intros NP d. rewrite in_map_iff. split.
      + intros (e & E & I). apply OE in I. destruct I as (k & Nk & EV). apply (proj1 (C121_edge_descr g (e_src e) (e_dst e))) in E. destruct E as [J _].
        rewrite EV in J. eauto.
      + intros (n & J). destruct J as (e & N & E1 & E2). exists e. split; [|apply OE; eauto]. destruct (descr_of g d e N) as (d0 & E0 & _ & J0 & _).
        rewrite E0. f_equal. apply (NP _ _ _ _ J0). exists e. auto.
  Qed.
  (** The vertices: one for each lane, and each can be read. *)
  Theorem C121_vertices : forall (m : xmap P) g, map_ok m -> built m g -> NoDup (get_vertices g) /\
    (forall v, In v (get_vertices g) <-> get_vertex g v <> None) /\
    (forall r l, lane_of m r l -> exists v x, In v (get_vertices g) /\ get_vertex g v = Some x /\ v_lane x = l /\ v_road x = r) /\
    (forall v x, In v (get_vertices g) -> get_vertex g v = Some x -> lane_of m (v_road x) (v_lane x)).
  Proof.
    intros m g OK B. pose proof (proj1 (built_nb m g OK B)) as BA. unfold get_vertices, get_vertex. split; [apply seq_NoDup|]. split; [|split].
    - intros v. rewrite in_seq, nth_error_Some. lia.
    - intros r l Hl. destruct (base_vertex m g r l OK BA Hl) as (x & Hx & _ & E2 & E3). apply In_nth_error in Hx as (v & N).
      exists v, x. split; [apply in_seq; split; [lia|]; cbn; apply nth_error_Some; rewrite N; discriminate|]. auto.
    - intros v x _ N. exact (proj1 (base_lane m g x OK BA (nth_error_In _ _ N))).
  Qed.
End Edges.
Print Assumptions C121_edge_descr.
Print Assumptions C121_edges.
Print Assumptions C121_all_edges_listed.
Print Assumptions C121_parallel_edges.
Print Assumptions C121_out_edges.
Print Assumptions C121_vertices.

(** Generated graphs have parallel edges, so not every edge is listed. *)
Theorem C121_all_edges_of_a_map_refuted : exists (m : xmap nat) g d e, map_ok m /\ generate m = Some g /\ get_edge g d = Some e /\ ~ In (Some d) (get_edges g).
Proof.
  assert (E : exists p, match p with (d, d') => (d <? d') && match nth_error (g_e g2) d, nth_error (g_e g2) d' with
    | Some e, Some e' => (e_src e =? e_src e') && (e_dst e =? e_dst e') | _, _ => false end end = true).
  { destruct (find (fun p => match p with (d, d') => (d <? d') && match nth_error (g_e g2) d, nth_error (g_e g2) d' with
    | Some e, Some e' => (e_src e =? e_src e') && (e_dst e =? e_dst e') | _, _ => false end end) (list_prod (seq 0 100) (seq 0 100))) as [p|] eqn:F.
    - exists p. apply find_some in F. exact (proj2 F).
    - exfalso. vm_compute in F. discriminate. }
  destruct E as ((d & d') & E). apply andb_true_iff in E. destruct E as [L E]. apply Nat.ltb_lt in L.
  destruct (nth_error (g_e g2) d) as [e|] eqn:N; [|discriminate]. destruct (nth_error (g_e g2) d') as [e'|] eqn:N'; [|discriminate].
  apply andb_true_iff in E. destruct E as [E1 E2]. apply Nat.eqb_eq in E1, E2.
  exists map2, g2, d', e'. split; [exact map2_ok|]. split; [exact g2_generated|]. split; [exact N'|].
  apply (C121_parallel_edges g2 d d' (e_src e) (e_dst e)); [exists e|exists e'|exact L]; auto.
Qed.
Print Assumptions C121_all_edges_of_a_map_refuted.

(* ------------------------------------------------------------------ *)
(** * Boundaries, neighbours, polygons *)
Section Lanes.
  Context {P : Type}.
  Variables (m : xmap P) (g : graph P).
  Hypothesis OK : map_ok m.
  Hypothesis B : built m g.

  Lemma inner_lane_ex (s : section P) l : (forall k x, In (k, x) s -> k = l_id x) -> exists o, inner_lane s l o.
  Proof.
    intros K. destruct (Z.eq_dec (l_pos l) 0) as [Z|Z]; [exists None; left; exact Z|].
    destruct (find (fun kl => (l_pos (snd kl) =? inward (l_pos l))%Z) s) as [[k i]|] eqn:F.
    - apply find_some in F. destruct F as [I E]. apply Z.eqb_eq in E. exists (Some i). split; [|split; assumption]. unfold in_section. now rewrite <- (K k i I).
    - exists None. right. intros b Hb E. pose proof (find_none _ _ F _ Hb) as X. cbn in X. apply Z.eqb_neq in X. contradiction.
  Qed.
  Lemma keys_ok r s : section_of m r s -> forall k x, In (k, x) s -> k = l_id x.
  Proof. intros H. exact (fun k x I => ok_keys m OK r s k x H I). Qed.
  Lemma boundaries_of r s l o : section_of m r s -> in_section l s -> inner_lane s l o ->
    lane_boundaries g (l_id l) = Some (o, l) /\ mi_inner_neighbor g (l_id l) = Some (o, match o with Some _ => true | None => false end).
  Proof.
    intros Hs Hl Ho. pose proof (built_nb m g OK B) as NB. unfold lane_boundaries, mi_inner_neighbor, neighbor_lane.
    rewrite (base_lane_ptr m g r l OK (proj1 NB)) by (exists s; auto). destruct (inner_spec m g r s l OK NB Hs Hl) as (I1 & I2).
    destruct o as [i|]; [destruct Ho as (A & Z & E); rewrite (I1 i A Z E), (base_lane_ptr m g r i OK (proj1 NB)) by (exists s; auto); auto|].
    rewrite (I2 Ho). auto.
  Qed.
End Lanes.
Lemma unknown_lane {P} (m : xmap P) g id : map_ok m -> built m g -> (forall r l, lane_of m r l -> l_id l <> id) -> vertex_by_lane g id = None.
Proof.
  intros OK B U. pose proof (proj1 (built_nb m g OK B)) as BA. apply find_v_None. intros I. apply in_map_iff in I as (v & <- & Hv).
  destruct (base_lane m g v OK BA Hv) as (H & E). exact (U _ _ H (eq_sym E)).
Qed.

(** GetInnerNeighbor and GetOuterNeighbor of the map: the lane next to it on the inner or outer side of its section, null
    and false when there is none; undefined for lanes that are not in the map. *)
Theorem C121_neighbors : forall {P} (m : xmap P) g, map_ok m -> built m g ->
  (forall r s l, section_of m r s -> in_section l s ->
     (exists o, inner_lane s l o /\ mi_inner_neighbor g (l_id l) = Some (o, match o with Some _ => true | None => false end)) /\
     (l_pos l <> 0%Z -> (forall b, in_section b s -> l_pos b = outward (l_pos l) -> mi_outer_neighbor g (l_id l) = Some (Some b, true)) /\
       ((forall b, in_section b s -> l_pos b <> outward (l_pos l)) -> mi_outer_neighbor g (l_id l) = Some (None, false)))) /\
  (forall id, (forall r l, lane_of m r l -> l_id l <> id) -> mi_inner_neighbor g id = None /\ mi_outer_neighbor g id = None).
Proof.
  intros P m g OK B. split.
  - intros r s l Hs Hl. split.
    + destruct (inner_lane_ex s l (keys_ok m OK r s Hs)) as (o & Ho). exists o. split; [exact Ho|]. exact (proj2 (boundaries_of m g OK B r s l o Hs Hl Ho)).
    + intros Z. pose proof (built_nb m g OK B) as NB. destruct (outer_spec m g r s l OK NB Hs Hl Z) as (O1 & O2). unfold mi_outer_neighbor, neighbor_lane.
      split; [intros b Hb E; rewrite (O1 b Hb E), (base_lane_ptr m g r b OK (proj1 NB)) by (exists s; auto); reflexivity|].
      intros H. now rewrite (O2 H).
  - intros id U. unfold mi_inner_neighbor, mi_outer_neighbor, inner_neighbor, outer_neighbor, neighbors_of_type, neighbor_lane.
    now rewrite (unknown_lane m g id OK B U).
Qed.
Print Assumptions C121_neighbors.

(** ComputeRouteBoundaries: for each lane of the route, in order, the lane on its inner side (null if there is none) and
    the lane itself. *)
Theorem C121_route_boundaries : forall {P} (m : xmap P) g route, map_ok m -> built m g ->
  (forall l, In l route -> exists r, lane_of m r l) ->
  exists inner, route_boundaries g (map l_id route) = Some (inner, route) /\ length inner = length route /\
    forall i l o, nth_error route i = Some l -> nth_error inner i = Some o -> exists r s, section_of m r s /\ in_section l s /\ inner_lane s l o.
Proof.
  intros P m g route OK B. induction route as [|l route IH]; intros H.
  - exists []. split; [reflexivity|]. split; [reflexivity|]. intros [|i] l o; discriminate.
  - destruct IH as (inner & E & L & N); [intros x I; apply H; now right|]. destruct (H l (or_introl eq_refl)) as (r & s & Hs & Hl).
    destruct (inner_lane_ex s l (keys_ok m OK r s Hs)) as (o & Ho). exists (o :: inner).
    cbn [map route_boundaries]. rewrite (proj1 (boundaries_of m g OK B r s l o Hs Hl Ho)), E. split; [reflexivity|]. split; [cbn; lia|].
    intros [|i] l' o' Nl No; cbn in Nl, No; [injection Nl as <-; injection No as <-; eauto|exact (N i l' o' Nl No)].
Qed.
Print Assumptions C121_route_boundaries.
(** A route containing a lane that is not in the map has no boundaries (the code reads past the vertices). *)
Theorem C121_route_boundaries_unknown : forall {P} (m : xmap P) g route id, map_ok m -> built m g ->
  In id route -> (forall r l, lane_of m r l -> l_id l <> id) -> route_boundaries g route = None.
Proof.
  intros P m g route id OK B I U. induction route as [|h route IH]; [contradiction|]. cbn [route_boundaries]. destruct I as [->|I].
  - unfold lane_boundaries, lane_ptr. now rewrite (unknown_lane m g id OK B U).
  - rewrite (IH I). destruct (lane_boundaries g h) as [[]|]; reflexivity.
Qed.
Print Assumptions C121_route_boundaries_unknown.

(** ComputeAllPathBoundaries: one path for each lane asked for that is linked to no other lane asked for, consisting of
    this lane and its inner lane - lanes that are linked are left out. *)
Theorem C121_path_boundaries : forall {P} (m : xmap P) g ver (D : dijkstra P) ids res, map_ok m -> generate m = Some g -> dijkstra_ok D ->
  all_path_boundaries ver D g ids = Some res ->
  forall b, In b res <-> exists r s l o, b = [(o, l)] /\ section_of m r s /\ in_section l s /\ inner_lane s l o /\ In (l_id l) ids /\
    forall x, In (l_id x) ids -> ~ (linked m l x \/ linked m x l).
Proof.
  intros P m g ver D ids res OK GE DO E b. assert (B : built m g) by (right; exact GE). unfold all_path_boundaries in E.
  destruct (find_all_paths ver D g [LANE_SUCC] ids) as [paths|] eqn:F; [|discriminate].
  pose proof (C63_all_paths_are_isolated_lanes m g ver D ids paths OK GE DO F) as C.
  assert (X : forall ps rs, paths_boundaries g ps = Some rs -> In b rs <-> exists p, In p ps /\ path_boundaries g p = Some b).
  { clear. induction ps as [|p ps IH]; intros rs; cbn [paths_boundaries]; [intros E; injection E as <-; split; [intros []|intros (p & [] & _)]|].
    destruct (path_boundaries g p) as [q|] eqn:Q; [|discriminate]. destruct (paths_boundaries g ps) as [qs|]; [|discriminate]. intros E. injection E as <-. split.
    - intros [<-|I]; [exists p; split; [now left|exact Q]|]. apply (IH qs eq_refl) in I. destruct I as (p' & I & E). exists p'. split; [now right|exact E].
    - intros (p' & [<-|I] & E); [left; congruence|]. right. apply (IH qs eq_refl). eauto. }
  rewrite (X paths res E). split.
  - intros (p & I & Q). apply C in I. destruct I as (r & l & -> & (s & Hs & Hl) & Ii & NL).
    destruct (inner_lane_ex s l (keys_ok m OK r s Hs)) as (o & Ho). cbn [path_boundaries] in Q. rewrite (proj1 (boundaries_of m g OK B r s l o Hs Hl Ho)) in Q.
    injection Q as <-. exists r, s, l, o. repeat split; auto.
  - intros (r & s & l & o & -> & Hs & Hl & Ho & Ii & NL). exists [l_id l]. split.
    + apply C. exists r, l. split; [reflexivity|]. split; [exists s; auto|]. auto.
    + cbn [path_boundaries]. now rewrite (proj1 (boundaries_of m g OK B r s l o Hs Hl Ho)).
Qed.
Print Assumptions C121_path_boundaries.
(** It is defined where the path search is. *)
Theorem C121_path_boundaries_defined : forall {P} (m : xmap P) g (D : dijkstra P) ids, map_ok m -> generate m = Some g -> dijkstra_ok D ->
  exists res, all_path_boundaries COUNT_ALL D g ids = Some res.
Proof.
  intros P m g D ids OK GE DO. assert (B : built m g) by (right; exact GE). unfold all_path_boundaries.
  destruct (C63_all_paths_defined m g D ids OK GE DO) as (paths & F). rewrite F.
  pose proof (C63_all_paths_are_isolated_lanes m g COUNT_ALL D ids paths OK GE DO F) as C.
  assert (Q : forall p, In p paths -> exists b, path_boundaries g p = Some b).
  { intros p I. apply C in I. destruct I as (r & l & -> & (s & Hs & Hl) & _). destruct (inner_lane_ex s l (keys_ok m OK r s Hs)) as (o & Ho).
    cbn [path_boundaries]. rewrite (proj1 (boundaries_of m g OK B r s l o Hs Hl Ho)). eauto. }
  clear C F. induction paths as [|p paths IH]; [exists []; reflexivity|]. cbn [paths_boundaries].
  destruct (Q p (or_introl eq_refl)) as (b & ->). destruct IH as (bs & ->); [intros q I; apply Q; now right|]. eauto.
Qed.
Print Assumptions C121_path_boundaries_defined.

(** GetLanePolygonForLaneId: the polygon between a lane and its inner lane; null for the plan view lane of a road;
    undefined for lanes that are not in the map. *)
Theorem C121_polygon : forall {P} (m : xmap P) g, map_ok m -> generate m = Some g ->
  (forall r s l i, section_of m r s -> in_section l s -> inner_lane s l (Some i) ->
     exists p rest, l_line i = p :: rest /\ polygon_for_lane g (l_id l) = Some (Some (l_line i ++ rev (l_line l) ++ [p]))) /\
  (forall id, (forall r l, lane_of m r l -> l_id l <> id) -> polygon_for_lane g id = None).
Proof.
  intros P m g OK GE. assert (B : built m g) by (right; exact GE). split.
  - intros r s l i Hs Hl (Hi & Z & E). destruct (C62_lane_polygon m g r s l i OK GE Hs Hl Hi Z E) as (p & rest & EL & _ & v & Hv & Ev & Ep).
    exists p, rest. split; [exact EL|]. unfold polygon_for_lane. pose proof (proj1 (built_nb m g OK B)) as BA.
    apply In_nth_error in Hv as (k & N). pose proof (find_v_nth (g_v g) k v (proj1 (proj2 BA)) N) as FV. unfold vertex_by_lane. rewrite <- Ev, FV, N. cbn. now rewrite Ep.
  - intros id U. unfold polygon_for_lane. now rewrite (unknown_lane m g id OK B U).
Qed.
Print Assumptions C121_polygon.

(* ------------------------------------------------------------------ *)
(** * The next road *)
Lemma after_first_spec cur : forall pre post, ~ In cur pre -> after_first cur (pre ++ cur :: post) = hd_error post.
Proof.
  induction pre as [|x pre IH]; intros post N; cbn; [now rewrite N.eqb_refl|].
  destruct (N.eqb_spec x cur) as [->|]; [exfalso; apply N; now left|]. apply IH. intros I. apply N. now right.
Qed.
Lemma after_first_none cur : forall ids, ~ In cur ids -> after_first cur ids = None.
Proof. induction ids as [|x r IH]; intros N; [reflexivity|]. cbn. destruct (N.eqb_spec x cur) as [->|]; [exfalso; apply N; now left|]. apply IH. intros I. apply N. now right. Qed.
(** On a route: the road after the first visit; none at the end, and, on a route that ends with the road, none on earlier
    visits either; roads that are not on a route are undefined. *)
Theorem C121_next_road : forall {A} (roads : kmap A) cur,
  (forall pre nxt post r, ~ In cur pre -> last (nxt :: post) nxt <> cur -> m_find nxt roads = Some r ->
     get_next_road cur roads (pre ++ cur :: nxt :: post) = ARoad r) /\
  (forall ids, get_next_road cur roads (ids ++ [cur]) = NoRoad) /\
  (forall ids, ~ In cur ids -> get_next_road cur roads ids = Undefined) /\
  (forall pre nxt post, ~ In cur pre -> last (nxt :: post) nxt <> cur -> m_find nxt roads = None ->
     get_next_road cur roads (pre ++ cur :: nxt :: post) = Thrown).
Proof.
  intros A roads cur.
  assert (LR : forall pre nxt post, last (nxt :: post) nxt <> cur -> exists x t, rev (pre ++ cur :: nxt :: post) = x :: t /\ x <> cur).
  { intros pre nxt post H. destruct (@exists_last _ (nxt :: post)) as (k & x & E); [discriminate|]. rewrite E in *. rewrite last_last in H.
    exists x, (rev (pre ++ cur :: k)). split; [|exact H]. change (pre ++ cur :: k ++ [x]) with (pre ++ (cur :: k) ++ [x]). rewrite app_assoc, rev_app_distr. reflexivity. }
  split; [|split; [|split]].
  - intros pre nxt post r NI H F. unfold get_next_road. destruct (LR pre nxt post H) as (x & t & -> & NE).
    destruct (N.eqb_spec x cur); [contradiction|]. rewrite after_first_spec by exact NI. cbn [hd_error]. now rewrite F.
  - intros ids. unfold get_next_road. rewrite rev_app_distr. cbn. now rewrite N.eqb_refl.
  - intros ids NI. unfold get_next_road. destruct (rev ids) as [|x t] eqn:E; [reflexivity|].
    destruct (N.eqb_spec x cur) as [->|]; [exfalso; apply NI, in_rev; rewrite E; now left|]. now rewrite after_first_none.
  - intros pre nxt post NI H F. unfold get_next_road. destruct (LR pre nxt post H) as (x & t & -> & NE).
    destruct (N.eqb_spec x cur); [contradiction|]. rewrite after_first_spec by exact NI. cbn [hd_error]. now rewrite F.
Qed.
Print Assumptions C121_next_road.
(** So on a round trip the first road has no next road. *)
Theorem C121_next_road_on_a_round_trip_refuted : forall {A} (roads : kmap A) cur nxt, get_next_road cur roads [cur; nxt; cur] = NoRoad.
Proof. intros A roads cur nxt. exact (proj1 (proj2 (C121_next_road roads cur)) [cur; nxt]). Qed.
Print Assumptions C121_next_road_on_a_round_trip_refuted.

Example C121_nonvacuous : map_ok map2 /\ built map2 g2 /\ get_next_vertices g2 0 <> Some [] /\
  mi_inner_neighbor g2 3 = Some (Some L2, true) /\ mi_inner_neighbor g2 1 = Some (None, false) /\ mi_outer_neighbor g2 2 = Some (Some L3, true) /\
  route_boundaries g2 [3; 7]%N = Some ([Some L2; Some L6], [L3; L7]) /\
  all_path_boundaries COUNT_ALL refD g2 [2; 7]%N = Some [[(Some L1, L2)]; [(Some L6, L7)]] /\
  get_next_road 1 [(1, 10); (2, 20)]%N [1; 2]%N = ARoad 20%N.
Proof. split; [exact map2_ok|]. split; [exact built2|]. vm_compute. repeat split; discriminate. Qed.
