(** C95: what the map read from an OpenDRIVE file contains.  C96: where its lanes are.
    C97 (which attributes matter) is at the end of the file. *)
From Coq Require Import String List Arith NArith ZArith Bool Lia Permutation.
Import ListNotations.
From Verif Require Import Model_Map Proof_Map Model_Roadgraph Spec_Roadgraph Props_Roadgraph Model_Xodr Spec_Xodr Proof_Xodr Proof_XodrAttr.
Local Open Scope string_scope.
Local Open Scope list_scope.

Section Props.
Context {F Line PV P : Type}.
Variables (fzero : F) (fadd : F -> F -> F).
Variable to_float : string -> option F.
Variable to_int : string -> option Z.
Variable pv_empty : PV.
Variable pv_geom : PV -> xgeom F -> option PV.
Variable pv_shift : PV -> F -> F -> F -> PV.
Variable ref_line : PV -> Line.
Variable empty_line : Line.
Variable append : Line -> Line -> Z -> xwidth F -> option Line.
Variable line_len : Line -> F.
Variable points : Line -> list P.
Variable s_inc : sinc F.
Notation read_map := (read_map fzero fadd to_float to_int pv_empty pv_geom pv_shift ref_line empty_line append line_len points s_inc).
Notation int_attr := (iattr to_int).
Notation num_attr := (fattr to_float).
Notation made_section := (made_section fzero fadd to_float to_int empty_line append line_len points).
Notation made_road := (made_road fzero fadd to_float to_int pv_empty pv_geom pv_shift ref_line empty_line append line_len points s_inc).

(* ------------------------------------------------------------------------------------ C95 *)

(** The roads of the map are those of the file, the last one of each number: links, sections,
    and in each section the lanes with their position, type, direction, links and junction. *)
Theorem C95_roads n root m n' : read_map n root = Some (m, n') ->
  (forall k rr, m_find k (m_roads m) = Some rr -> exists rd, last_road to_int (findall root "road") k rd /\ road_as_in_file to_int rd rr) /\
  (forall rd, In rd (findall root "road") -> exists k, road_number to_int rd k /\ m_find k (m_roads m) <> None).
Proof.
  intros H. apply read_roads in H as (hdr & _ & _ & _ & _ & A & B). split; [|exact B].
  intros k rr E. destruct (A k rr E) as (rd & L & M). exists rd. split; [exact L|]. eapply made_road_as_in_file. exact M.
Qed.

(** Lane ids are new (above those given out before) and given out once. *)
Theorem C95_lane_ids n root m n' : read_map n root = Some (m, n') ->
  NoDup (map (fun rl => l_id (snd rl)) (lanes_list m)) /\ (forall r l, lane_of m r l -> (n < l_id l <= n')%N) /\ (n <= n')%N.
Proof.
  intros H. apply read_roads in H as (hdr & _ & A & B & C & _). rewrite lanes_list_ids. split; [exact A|]. split; [|exact B].
  intros r l (s & (rd & I1 & I2) & I3). apply C. unfold road_ids. apply in_flat_map. exists (r, rd). split; [exact I1|]. cbn [snd]. unfold ids_of_road.
  apply in_flat_map. exists s. split; [exact I2|]. apply in_map_iff. exists (l_id l, l). auto.
Qed.

Lemma F2_in {A B} (R : A -> B -> Prop) l l' y : Forall2 R l l' -> In y l' -> exists x, In x l /\ R x y.
Proof. induction 1 as [|a b l l' H1 H IH]; intros I; [destruct I|]. destruct I as [<-|I]; [exists a; split; [now left|exact H1]|]. destruct (IH I) as (x & X1 & X2). exists x. split; [now right|exact X2]. Qed.

Lemma section_made n root m n' r s : read_map n root = Some (m, n') -> section_of m r s ->
  exists hdr rd lanes sec rl off pv n1 n2, header_offset to_float root = Some hdr /\
    last_road to_int (findall root "road") r rd /\ find1 rd "lanes" = Some lanes /\ In sec (findall lanes "laneSection") /\
    lane_offset fzero to_float lanes = Some off /\ plan_view to_float pv_empty pv_geom pv_shift s_inc hdr rd = Some pv /\
    made_section rd sec rl (ref_line pv) off n1 s n2 /\ (s <> [] -> num_attr rd "length" = Some rl).
Proof.
  intros H (rr & I1 & I2). pose proof H as H0. apply read_inv in H0 as (hdr & HD & HR & _).
  apply make_roads_ok in HR as (S1 & _ & _ & _ & A & _ & _); [|constructor|constructor|intros x []].
  apply (proj2 (m_find_iff _ _ _ S1)) in I1. destruct (A r rr I1) as [(rd & L & M)|[B _]]; [|discriminate].
  destruct M as (_ & _ & _ & _ & _ & lanes & off & pv & C & D & E & G). destruct (F2_in _ _ _ s G I2) as (sec & G1 & rl & n1 & n2 & G2 & G3).
  exists hdr, rd, lanes, sec, rl, off, pv, n1, n2. auto 10.
Qed.

(** The map meets what the road graph is built on (C61 - C63), if no lane section gives two
    lanes the same number. *)
Theorem C95_map_ok n root m n' : read_map n root = Some (m, n') ->
  (forall rd lanes sec, In rd (findall root "road") -> find1 rd "lanes" = Some lanes -> In sec (findall lanes "laneSection") -> distinct_ids to_int sec) ->
  map_ok m.
Proof.
  intros H D. pose proof (C95_lane_ids _ _ _ _ H) as (IDS & _). pose proof H as H0. apply read_roads in H0 as (hdr & S & _).
  constructor.
  - exact S.
  - intros r s I. destruct (section_made _ _ _ _ _ _ H I) as (h & rd & lanes & sec & rl & off & pv & n1 & n2 & _ & _ & _ & _ & _ & _ & M & _).
    apply (made_in fzero fadd to_float to_int empty_line append line_len points) in M. apply M.
  - intros r s k l I. destruct (section_made _ _ _ _ _ _ H I) as (h & rd & lanes & sec & rl & off & pv & n1 & n2 & _ & _ & _ & _ & _ & _ & M & _).
    apply (made_in fzero fadd to_float to_int empty_line append line_len points) in M. apply M.
  - exact IDS.
  - intros r s I. destruct (section_made _ _ _ _ _ _ H I) as (h & rd & lanes & sec & rl & off & pv & n1 & n2 & _ & L & FL & IS & _ & _ & M & _).
    destruct L as (pre & post & EQ & _). assert (DI : distinct_ids to_int sec) by (eapply D; [|exact FL|exact IS]; rewrite EQ; apply in_or_app; right; now left).
    destruct M as (ls & new & E & -> & L & _ & _ & G). destruct (section_lanes_ok to_int sec ls E) as (A & _ & C). specialize (C DI).
    assert (EP : map (fun kl => l_pos (snd kl)) (map keyed new) = map fst (by_distance ls)).
    { rewrite map_map. apply (nth_ext _ _ 0%Z 0%Z); [rewrite !map_length, dist_len; exact L|]. intros i Hi. rewrite map_length in Hi.
      destruct (nth_error new i) as [x|] eqn:X; [|apply nth_error_None in X; lia].
      destruct (nth_error (by_distance ls) i) as [il|] eqn:Y; [|apply nth_error_None in Y; rewrite dist_len in Y; lia].
      destruct (G i il x Y X) as (_ & GP & _).
      rewrite (nth_error_nth _ _ _ (map_nth_error (fun x => l_pos (snd (keyed x))) i new X)).
      rewrite (nth_error_nth _ _ _ (map_nth_error fst i (by_distance ls) Y)). exact GP. }
    rewrite EP. eapply Permutation_NoDup; [apply Permutation_map, dist_perm|].
    apply (NoDup_map_inv Some). unfold distinct_ids in DI. rewrite <- C in DI. rewrite map_map in DI |- *.
    erewrite map_ext_in; [exact DI|]. intros il Il. symmetry. apply A, Il.
Qed.

(** No gaps: a lane further out has an inner neighbour, made before it; so sections with a
    lane 0 are contiguous. *)
Theorem C95_no_gap n root m n' r s l : read_map n root = Some (m, n') -> section_of m r s -> in_section l s -> (2 <= Z.abs (l_pos l))%Z ->
  exists l', in_section l' s /\ l_pos l' = inward (l_pos l) /\ (l_id l' < l_id l)%N.
Proof.
  intros H I L Hp. destruct (section_made _ _ _ _ _ _ H I) as (h & rd & lanes & sec & rl & off & pv & n1 & n2 & _ & _ & _ & _ & _ & _ & M & _).
  eapply (made_inner fzero fadd to_float to_int empty_line append line_len points); eauto.
Qed.
Theorem C95_contiguous n root m n' r s : read_map n root = Some (m, n') -> section_of m r s -> has_plan_view s -> contiguous s.
Proof.
  intros H I (l0 & L0 & P0) l L Hp. destruct (Z_le_gt_dec 2 (Z.abs (l_pos l))) as [G|G].
  - destruct (C95_no_gap _ _ _ _ _ _ _ H I L G) as (l' & A & B & _). eauto.
  - exists l0. split; [exact L0|]. rewrite P0. unfold inward. destruct (Z.ltb_spec 0 (l_pos l)); lia.
Qed.

(** From the file to the road graph: if lane numbers are distinct within a section, every
    section has a lane 0, every road a section, the junctions name existing roads and no lane
    is drawn empty, the graph exists and finds the plan view of every lane. *)
Theorem C95_graph n root m n' : read_map n root = Some (m, n') ->
  (forall rd lanes sec, In rd (findall root "road") -> find1 rd "lanes" = Some lanes -> In sec (findall lanes "laneSection") ->
     distinct_ids to_int sec /\ exists e, In e (file_lanes sec) /\ int_attr e "id" = Some 0%Z) ->
  (forall rd lanes, In rd (findall root "road") -> find1 rd "lanes" = Some lanes -> findall lanes "laneSection" <> []) ->
  (forall j cs k c, In (j, cs) (m_junctions m) -> In (k, c) cs ->
     m_find (c_incoming c) (m_roads m) <> None /\ m_find (c_connecting c) (m_roads m) <> None) ->
  (forall r l, lane_of m r l -> l_line l <> []) ->
  exists g, generate m = Some g /\
    forall r s l, section_of m r s -> in_section l s -> exists pv, in_section pv s /\ l_pos pv = 0%Z /\ plan_view_for_lane g (l_id l) = Some (l_id pv, true).
Proof.
  intros H D Ne J L. assert (OK : map_ok m) by (apply (C95_map_ok _ _ _ _ H); intros rd lanes sec A B C; apply (D rd lanes sec A B C)).
  pose proof (C95_roads _ _ _ _ H) as (RA & _).
  destruct (C61_generate_is_defined m OK) as [g G]; auto.
  { intros k r I E. apply (proj2 (m_find_iff _ _ _ (ok_roads _ OK))) in I. destruct (RA k r I) as (rd & (pre & post & EQ & _) & RF).
    destruct (ra_sections _ _ _ RF) as (lanes & FL & FS). apply (Ne rd lanes); [rewrite EQ; apply in_or_app; right; now left|exact FL|].
    rewrite E in FS. inversion FS. reflexivity. }
  exists g. split; [exact G|]. intros r s l I L'. apply (C61_plan_view_for_lane m g r s l OK (or_intror G) I L').
  apply (C95_contiguous _ _ _ _ _ _ H I). destruct I as (rr & I1 & I2). apply (proj2 (m_find_iff _ _ _ (ok_roads _ OK))) in I1.
  destruct (RA r rr I1) as (rd & (pre & post & EQ & _) & RF). destruct (ra_sections _ _ _ RF) as (lanes & FL & FS).
  destruct (F2_in _ _ _ s FS I2) as (sec & S1 & S2).
  destruct (D rd lanes sec) as (DI & e & E1 & E2); [rewrite EQ; apply in_or_app; right; now left|exact FL|exact S1|].
  destruct (sa_each _ _ _ _ S2 DI e E1) as (pv & V1 & V2). exists pv. split; [exact V1|]. pose proof (la_pos _ _ _ _ V2). congruence.
Qed.

(** Junctions: the last element of each number, its connections the last of each number. *)
Lemma fold_insert_last {V} (num : xml -> option Z) (key : Z -> N) (f : xml -> option (N * V)) (Rel : xml -> V -> Prop) :
  (forall x k a, f x = Some (k, a) -> exists z, num x = Some z /\ key z = k /\ Rel x a) ->
  (forall x y z z' a b, num x = Some z -> num y = Some z' -> f x = Some a -> f y = Some b -> key z = key z' -> z = z') ->
  forall l ks, omap f l = Some ks ->
  let m := fold_left (fun m c => m_insert (fst c) (snd c) m) ks [] in
  m_sorted m /\ (forall k a, m_find k m = Some a -> exists z x, key z = k /\ last_with num l z x /\ Rel x a) /\
  (forall x, In x l -> exists z, num x = Some z /\ m_find (key z) m <> None).
Proof.
  intros HF INJ l. induction l as [|x l IH] using rev_ind; intros ks H.
  - cbn in H. injection H as <-. cbn. split; [constructor|]. split; [discriminate|intros x []].
  - assert (HS : exists ks0 b, omap f l = Some ks0 /\ f x = Some b /\ ks = ks0 ++ [b]).
    { clear - H. revert ks H. induction l as [|y l IH]; intros ks H; cbn [app omap] in H.
      - ob H b E. injection H as <-. exists [], b. auto.
      - ob H b E. ob H bs E2. injection H as <-. destruct (IH _ eq_refl) as (k0 & b1 & A0 & B0 & ->). exists (b :: k0), b1. cbn [omap]. rewrite E. cbn [obind]. rewrite A0. auto. }
    destruct HS as (ks0 & [k a] & H1 & H2 & ->). destruct (IH _ H1) as (S & A & B). cbv zeta. rewrite fold_left_app. cbn [fold_left fst snd].
    set (m := fold_left (fun m c => m_insert (fst c) (snd c) m) ks0 []) in *.
    destruct (HF x k a H2) as (z & Z1 & Z2 & Z3).
    split; [apply m_insert_sorted; exact S|]. split.
    + intros k' a' E. destruct (N.eq_dec k' k) as [->|NE].
      * rewrite m_find_insert_same in E. injection E as <-. exists z, x. split; [exact Z2|]. split; [|exact Z3]. exists l, []. split; [reflexivity|]. split; [exact Z1|intros y []].
      * rewrite m_find_insert_other in E by exact NE. destruct (A k' a' E) as (z' & y & K1 & (pre & post & -> & K2 & K3) & K4). exists z', y. split; [exact K1|]. split; [|exact K4].
        exists pre, (post ++ [x]). split; [rewrite <- app_assoc; reflexivity|]. split; [exact K2|]. intros q I. apply in_app_or in I as [I|[<-|[]]]; [apply K3, I|]. intros Q. apply NE. congruence.
    + intros y I. apply in_app_or in I as [I|[<-|[]]].
      * destruct (B y I) as (z' & W1 & W2). exists z'. split; [exact W1|]. destruct (N.eq_dec (key z') k) as [->|NE]; [rewrite m_find_insert_same; discriminate|rewrite m_find_insert_other by exact NE; exact W2].
      * exists z. split; [exact Z1|]. rewrite Z2, m_find_insert_same. discriminate.
Qed.
Lemma connection_ok x k c : make_connection to_int x = Some (k, c) -> exists z, int_attr x "id" = Some z /\ Z.to_N z = k /\ (z = Z.of_N k /\ connection_as_in_file to_int x c).
Proof.
  unfold make_connection. intros H. ob H i E1. ob H o E2. ob H d E3. ob H ls E4. assert (d = k) by congruence. assert (c = mkConn i o ls) by congruence. subst. clear H.
  ob E1 z1 Q1. ob E2 z2 Q2. ob E3 z3 Q3. apply uint32_some in E1 as [-> _]. apply uint32_some in E2 as [-> _]. apply uint32_some in E3 as [-> _].
  exists (Z.of_N k). split; [reflexivity|]. split; [apply N2Z.id|]. split; [reflexivity|]. constructor; cbn [c_incoming c_connecting c_links]; [exact Q1|exact Q2|].
  apply omap_nth in E4. induction E4 as [|l p l0 l1 A B IH]; constructor; auto. unfold lane_link in A. ob A f A1. ob A t A2. ob A f' A3. ob A t' A4.
  apply int32_some in A3 as [<- _]. apply int32_some in A4 as [<- _]. injection A as <-. auto.
Qed.
Lemma connection_inj x y z z' a b : int_attr x "id" = Some z -> int_attr y "id" = Some z' -> make_connection to_int x = Some a -> make_connection to_int y = Some b -> Z.to_N z = Z.to_N z' -> z = z'.
Proof.
  intros A B C D E. destruct a as [k c], b as [k' c']. destruct (connection_ok _ _ _ C) as (w & W1 & _ & W2 & _). destruct (connection_ok _ _ _ D) as (w' & W1' & _ & W2' & _).
  assert (z = w) by congruence. assert (z' = w') by congruence. subst. rewrite !N2Z.id in E. congruence.
Qed.
(** [cs] holds the connections of the junction element [e]. *)
Definition junction_as_in_file (e : xml) (cs : kmap connection) : Prop :=
  (forall k c, m_find k cs = Some c -> exists x, last_with (fun x => int_attr x "id") (findall e "connection") (Z.of_N k) x /\ connection_as_in_file to_int x c) /\
  (forall x, In x (findall e "connection") -> exists k, int_attr x "id" = Some (Z.of_N k) /\ m_find k cs <> None).
Lemma junction_ok x k cs : make_junction to_int x = Some (k, cs) ->
  exists z, int_attr x "id" = Some z /\ Z.to_N (z mod two32) = k /\ ((- 2147483648 <= z <= 2147483647)%Z /\ junction_as_in_file x cs).
Proof.
  unfold make_junction. intros H. ob H z E1. ob H z' E2. ob H l E3. apply int32_some in E2 as [<- E2]. 
  assert (EQ : Z.to_N (z mod two32) = k) by congruence. assert (EC : cs = fold_left (fun m c => m_insert (fst c) (snd c) m) l []) by congruence. clear H.
  exists z. split; [first [exact E1 | reflexivity]|]. split; [exact EQ|]. split; [exact E2|]. subst cs.
  destruct (fold_insert_last (fun x => int_attr x "id") Z.to_N (make_connection to_int) (fun x c => (exists k, int_attr x "id" = Some (Z.of_N k)) /\ connection_as_in_file to_int x c)
    ltac:(intros y k' a H; destruct (connection_ok _ _ _ H) as (w & W1 & W2 & -> & W3); exists (Z.of_N k'); split; [exact W1|]; split; [exact W2|]; split; [exists k'; exact W1|exact W3])
    connection_inj _ _ E3) as (_ & A & B).
  split.
  - intros k' c Hc. destruct (A k' c Hc) as (w & y & W1 & W2 & (k2 & W4) & W3). exists y. split; [|exact W3].
    assert (w = Z.of_N k2) by (destruct W2 as (? & ? & _ & W2 & _); congruence). subst w. rewrite N2Z.id in W1. now subst.
  - intros y Hy. destruct (B y Hy) as (w & W1 & W2). pose proof (omap_nth _ _ _ E3) as E3'.
    assert (exists a, make_connection to_int y = Some a) as [[k2 c2] K2].
    { clear - E3' Hy. induction E3' as [|u v l l' U E IH]; [destruct Hy|]. destruct Hy as [<-|Hy]; [eauto|apply IH, Hy]. }
    destruct (connection_ok _ _ _ K2) as (w' & W1' & W3 & W4 & _). assert (w = Z.of_N k2) by congruence. subst w. exists k2. split; [exact W1|]. now rewrite N2Z.id in W2.
Qed.
Theorem C95_junctions n root m n' : read_map n root = Some (m, n') ->
  (forall k cs, m_find k (m_junctions m) = Some cs -> exists e z, last_with (fun x => int_attr x "id") (findall root "junction") z e /\
     Z.of_N k = (z mod two32)%Z /\ junction_as_in_file e cs) /\
  (forall e, In e (findall root "junction") -> exists z, int_attr e "id" = Some z /\ m_find (Z.to_N (z mod two32)) (m_junctions m) <> None).
Proof.
  intros H. apply read_inv in H as (hdr & _ & _ & js & HJ & ->).
  assert (INJ : forall x y z z' a b, int_attr x "id" = Some z -> int_attr y "id" = Some z' -> make_junction to_int x = Some a -> make_junction to_int y = Some b ->
     Z.to_N (z mod two32) = Z.to_N (z' mod two32) -> z = z').
  { intros x y z z' [k c] [k' c'] A B C D E. destruct (junction_ok _ _ _ C) as (w & W1 & _ & W2 & _). destruct (junction_ok _ _ _ D) as (w' & W1' & _ & W2' & _).
    assert (z = w) by congruence. assert (z' = w') by congruence. subst w w'.
    assert (M : (z mod two32 = z' mod two32)%Z) by (apply (f_equal Z.of_N) in E; rewrite !Z2N.id in E by (apply Z.mod_pos_bound; reflexivity); exact E).
    pose proof (Z.div_mod z two32 ltac:(discriminate)). pose proof (Z.div_mod z' two32 ltac:(discriminate)). unfold two32 in *. lia. }
  destruct (fold_insert_last (fun x => int_attr x "id") (fun z => Z.to_N (z mod two32)) (make_junction to_int) junction_as_in_file
    ltac:(intros y k' a H; destruct (junction_ok _ _ _ H) as (w & W1 & W2 & _ & W3); eauto) INJ _ _ HJ) as (_ & A & B).
  split; [|exact B]. intros k cs E. destruct (A k cs E) as (z & e & Z1 & Z2 & Z3). exists e, z. split; [exact Z2|]. split; [|exact Z3].
  rewrite <- Z1, Z2N.id; [reflexivity|]. apply Z.mod_pos_bound. reflexivity.
Qed.

(** What must be in the file. *)
Theorem C95_required n root m n' rd : read_map n root = Some (m, n') -> In rd (findall root "road") ->
  find1 root "header" <> None /\ (exists i, int_attr rd "id" = Some i /\ (0 <= i < two32)%Z) /\ attr rd "name" <> None /\ int_attr rd "junction" <> None /\
  exists lanes p, find1 rd "lanes" = Some lanes /\ find1 rd "planView" = Some p /\
    (forall g, In g (findall p "geometry") -> find1 g "line" <> None \/ find1 g "spiral" <> None \/ find1 g "arc" <> None) /\
    (forall sec, In sec (findall lanes "laneSection") -> num_attr sec "s" <> None).
Proof.
  intros H I. apply read_inv in H as (hdr & HD & H & _).
  assert (K : forall roads n m m' n', make_roads fzero fadd to_float to_int pv_empty pv_geom pv_shift ref_line empty_line append line_len points s_inc n hdr roads m = Some (m', n') ->
    In rd roads -> exists n1 x, make_road fzero fadd to_float to_int pv_empty pv_geom pv_shift ref_line empty_line append line_len points s_inc n1 hdr rd = Some x).
  { clear. induction roads as [|r roads IH]; intros n m m' n' H I; [destruct I|]. cbn [make_roads] in H. ob H x E. destruct x as [x n1]. destruct I as [<-|I]; [eauto|]. eapply IH; eauto. }
  destruct (K _ _ _ _ _ H I) as (n1 & x & E). unfold make_road in E. ob E lanes E1. ob E off E2. ob E rid E3. ob E nm E4. ob E pv E5. ob E j E6. ob E y E7.
  unfold header_offset in HD. ob HD h HD1. split; [discriminate|]. ob E3 i E3'. split; [exists i; split; [reflexivity|]; apply uint32_some in E3 as [-> E3]; lia|].
  split; [discriminate|]. split; [discriminate|]. unfold plan_view in E5. ob E5 p P1. ob E5 pv0 P2. exists lanes, p. split; [reflexivity|]. split; [reflexivity|]. split.
  - clear - P2. revert P2. generalize pv_empty. induction (findall p "geometry") as [|g gs IH]; intros v H x I; [destruct I|]. cbn [plan_view_from] in H. ob H gg E. ob H v' E2.
    destruct I as [<-|I]; [|eapply IH; eauto]. unfold geometry in E. ob E a1 B1. ob E a2 B2. ob E a3 B3. ob E a4 B4.
    destruct (find1 g "arc"); [right; right; discriminate|]. destruct (find1 g "spiral"); [right; left; discriminate|]. destruct (find1 g "line"); [left; discriminate|discriminate].
  - destruct y as [ss n2]. clear - E7. revert n1 ss n2 E7. induction (findall lanes "laneSection") as [|s l IH]; intros n1 ss n2 H x I; [destruct I|]. cbn [make_sections] in H.
    ob H q E. destruct q as [s1 n3]. ob H q E2. destruct q as [s2 n4]. destruct I as [<-|I]; [|eapply IH; eauto]. unfold make_section in E. ob E sv E3. discriminate.
Qed.

(* ------------------------------------------------------------------------------------ C96 *)

Lemma widths_ok e pos ws : lane_widths fzero to_float e pos = Some ws -> widths_as_in_file fzero to_float e pos ws.
Proof.
  unfold lane_widths, widths_as_in_file. destruct (findall e "width") as [|w l] eqn:E.
  - rewrite andb_true_r. destruct (pos =? 0)%Z; intros H; injection H as <-; [reflexivity|constructor].
  - rewrite andb_false_r. intros H. apply omap_nth in H. revert H. generalize (w :: l). clear. intros l H. induction H as [|w r l rs A H IH]; constructor; auto.
    unfold width_record in A. ob A s A1. ob A a A2. ob A b A3. ob A c A4. ob A d A5. injection A as <-. unfold width_as_in_file. cbn [fst snd]. auto.
Qed.
Lemma offset_ok lanes o : lane_offset fzero to_float lanes = Some o -> offset_as_in_file fzero to_float lanes o.
Proof.
  unfold lane_offset, offset_as_in_file. destruct (find1 lanes "laneOffset") as [e|]; [|intros H; injection H as <-; reflexivity].
  intros H. ob H s A1. ob H a A2. ob H b A3. ob H c A4. ob H d A5. injection H as <-. cbn [fst snd]. auto.
Qed.
Lemma geometry_ok g x : geometry to_float s_inc g = Some x -> geometry_as_in_file to_float s_inc g x.
Proof.
  unfold geometry. intros H. ob H a1 B1. ob H a2 B2. ob H a3 B3. ob H a4 B4.
  destruct (find1 g "arc") as [a|] eqn:A; [ob H k K; injection H as <-; econstructor; eauto|].
  destruct (find1 g "spiral") as [s|] eqn:S; [ob H k0 K0; ob H k1 K1; injection H as <-; econstructor; eauto|].
  destruct (find1 g "line") as [l|] eqn:L; [|discriminate]. destruct s_inc as [|f|] eqn:SI; [| |discriminate]; injection H as <-; constructor; auto; congruence.
Qed.
Lemma pv_ok root rd hdr pv : header_offset to_float root = Some hdr -> plan_view to_float pv_empty pv_geom pv_shift s_inc hdr rd = Some pv ->
  plan_view_as_in_file to_float s_inc pv_empty pv_geom pv_shift root rd pv.
Proof.
  unfold header_offset, plan_view. intros H E. ob H h H1. ob E p P1. ob E v V1.
  assert (G : exists gs, Forall2 (geometry_as_in_file to_float s_inc) (findall p "geometry") gs /\ draws pv_geom pv_empty gs v).
  { revert V1. generalize pv_empty. clear. induction (findall p "geometry") as [|g l IH]; intros v0 H; cbn [plan_view_from] in H; [injection H as <-; exists []; split; constructor|].
    ob H x X. ob H v' V. destruct (IH _ H) as (gs & G1 & G2). exists (x :: gs). split; [constructor; [apply geometry_ok, X|exact G1]|econstructor; eauto]. }
  destruct G as (gs & G1 & G2). exists h, p, gs, v. split; [exact H1|]. split; [exact P1|]. split; [exact G1|]. split; [exact G2|].
  destruct (find1 h "offset") as [o|].
  - ob H x X. ob H y Y. ob H z Z9. ob H t T. injection H as <-. exists x, y, t. injection E as <-. auto.
  - injection H as <-. injection E as <-. reflexivity.
Qed.

(** The border of every lane: from the line on its inner side, piece by piece with the width
    records of the file.  Lane 0 and lanes +-1 start from the reference line of the plan view
    and reach to the length of the road; only lanes +-1 get the lane offset, added to their
    widths; the others start from the border of the lane inside and reach to its length. *)
Theorem C96_borders n root m n' r s l : read_map n root = Some (m, n') -> section_of m r s -> in_section l s ->
  exists rd lanes sec e off pv ws prev border,
    last_road to_int (findall root "road") r rd /\ find1 rd "lanes" = Some lanes /\ In sec (findall lanes "laneSection") /\
    In e (file_lanes sec) /\ lane_as_in_file to_int rd e l /\ offset_as_in_file fzero to_float lanes off /\
    plan_view_as_in_file to_float s_inc pv_empty pv_geom pv_shift root rd pv /\
    widths_as_in_file fzero to_float e (l_pos l) ws /\ l_line l = points border /\
    (l_pos l = 0%Z -> prev = ref_line pv /\ exists len, num_attr rd "length" = Some len /\
       pieces fadd append (fzero, (fzero, fzero, fzero, fzero)) len prev (l_pos l) ws empty_line border) /\
    (Z.abs (l_pos l) = 1%Z -> prev = ref_line pv /\ exists len, num_attr rd "length" = Some len /\
       pieces fadd append off len prev (l_pos l) ws empty_line border) /\
    ((2 <= Z.abs (l_pos l))%Z -> (exists i, in_section i s /\ l_pos i = inward (l_pos l) /\ l_line i = points prev) /\
       pieces fadd append (fzero, (fzero, fzero, fzero, fzero)) (line_len prev) prev (l_pos l) ws empty_line border).
Proof.
  intros H I L. destruct (section_made _ _ _ _ _ _ H I) as (hdr & rd & lanes & sec & rl & off & pv & n1 & n2 & HD & LR & FL & IS & OF & HP & M & RL).
  assert (NE : s <> []) by (intros ->; destruct L). specialize (RL NE).
  destruct M as (ls & new & E & -> & LN & _ & _ & G). destruct (section_lanes_ok to_int sec ls E) as (A & _).
  unfold in_section in L. apply in_map_iff in L as (x & E1 & L). unfold keyed in E1. assert (l = fst x) by congruence. subst l.
  apply In_nth_error in L as [i X]. destruct (nth_error (by_distance ls) i) as [il|] eqn:Y.
  2:{ apply nth_error_None in Y. assert (i < length new)%nat by (apply nth_error_Some; congruence). rewrite dist_len in *. lia. }
  destruct (G i il x Y X) as (G1 & G2 & G3 & ws & prev & o & e & W & PC & Z0 & Z1 & Z2).
  assert (IL : In il ls) by (apply (proj1 (dist_in _ _)); eapply nth_error_In; exact Y).
  exists rd, lanes, sec, (snd il), off, pv, ws, prev, (snd x). rewrite G2.
  split; [exact LR|]. split; [exact FL|]. split; [exact IS|]. split; [apply A, IL|]. split; [exact G1|]. split; [apply offset_ok, OF|].
  split; [eapply pv_ok; eauto|]. split; [apply widths_ok, W|]. split; [exact G3|]. split; [|split].
  - intros Q. destruct (Z0 Q) as (-> & -> & ->). split; [reflexivity|]. exists rl. auto.
  - intros Q. destruct (Z1 Q) as (-> & -> & ->). split; [reflexivity|]. exists rl. auto.
  - intros Q. destruct (Z2 Q) as (-> & -> & BP). split; [|exact PC]. apply by_position_in in BP as (y & Y1 & Y2 & Y3). exists (fst y).
    apply In_nth_error in Y1 as [k Y1]. assert (K : (k < length (firstn i new))%nat) by (apply nth_error_Some; congruence). rewrite firstn_length in K.
    assert (K2 : nth_error new k = Some y) by (rewrite <- (firstn_skipn i new), nth_error_app1; [exact Y1|rewrite firstn_length; lia]).
    split; [unfold in_section; apply (in_map keyed); eapply nth_error_In; exact K2|]. split; [exact Y2|].
    destruct (nth_error (by_distance ls) k) as [il'|] eqn:YY; [|apply nth_error_None in YY; rewrite dist_len in YY; lia].
    destruct (G k il' y YY K2) as (_ & _ & G3' & _). rewrite G3', Y3. reflexivity.
Qed.

(** A lane without width records is drawn as an empty line (then C61's graph does not exist). *)
Theorem C96_no_width n root m n' r s l : read_map n root = Some (m, n') -> section_of m r s -> in_section l s -> l_pos l <> 0%Z ->
  (forall rd lanes sec e, last_road to_int (findall root "road") r rd -> find1 rd "lanes" = Some lanes -> In sec (findall lanes "laneSection") ->
     In e (file_lanes sec) -> int_attr e "id" = Some (l_pos l) -> findall e "width" = []) ->
  l_line l = points empty_line.
Proof.
  intros H I L NZ NW. destruct (C96_borders _ _ _ _ _ _ _ H I L) as (rd & lanes & sec & e & off & pv & ws & prev & b & A1 & A2 & A3 & A4 & A5 & _ & _ & W & B & _ & C1 & C2).
  specialize (NW rd lanes sec e A1 A2 A3 A4 (la_pos _ _ _ _ A5)). unfold widths_as_in_file in W. rewrite NW in W. rewrite (proj2 (Z.eqb_neq _ _) NZ) in W. cbn [andb] in W.
  inversion W; subst ws. rewrite B. f_equal. destruct (Z_le_gt_dec 2 (Z.abs (l_pos l))) as [G|G].
  - destruct (C2 G) as (_ & Q). inversion Q. reflexivity.
  - destruct C1 as (_ & len & _ & Q); [lia|]. inversion Q. reflexivity.
Qed.

(* ------------------------------------------------------------------------------------ C97 *)

(** The map is determined by the attributes [used] lists. *)
Theorem C97_used_attributes n x y : agree (fun v => to_float v <> None) x y -> read_map n x = read_map n y.
Proof. apply read_agree. Qed.
(** Where a lane section starts does not matter: every lane of every section starts at the
    start of the road. *)
Theorem C97_section_start_ignored n root v v' : to_float v <> None -> to_float v' <> None ->
  read_map n (set_attr "laneSection" "s" v root) = read_map n (set_attr "laneSection" "s" v' root).
Proof. intros. apply read_agree, set_s_agrees; assumption. Qed.
(** Contact points do not matter, neither those of junctions nor those of road links. *)
Theorem C97_contact_point_ignored n root v t : In t ["connection"; "predecessor"; "successor"] ->
  read_map n (set_attr t "contactPoint" v root) = read_map n root.
Proof. intros I. symmetry. apply read_agree, set_unused_agrees; destruct I as [<-|[<-|[<-|[]]]]; try reflexivity; discriminate. Qed.
(** The start s of a geometry does not matter either: they are drawn in file order. *)
Theorem C97_geometry_start_ignored n root v : read_map n (set_attr "geometry" "s" v root) = read_map n root.
Proof. symmetry. apply read_agree, set_unused_agrees; [reflexivity|discriminate]. Qed.
End Props.
Print Assumptions C95_graph.
Print Assumptions C95_junctions.
Print Assumptions C96_borders.
Print Assumptions C97_section_start_ignored.

(* ------------------------------------------------------------------------------------ examples *)

(** Numbers are integers; a line is a list of points, a border its copy moved sideways. *)
Definition digits (s : string) : option Z :=
  if String.eqb s "0" then Some 0%Z else if String.eqb s "1" then Some 1%Z else if String.eqb s "2" then Some 2%Z else if String.eqb s "3" then Some 3%Z
  else if String.eqb s "-1" then Some (-1)%Z else if String.eqb s "-2" then Some (-2)%Z else if String.eqb s "10" then Some 10%Z else None.
Definition toy_geom (v : list (Z * Z)) (g : xgeom Z) : option (list (Z * Z)) :=
  match g with XLine x y _ len _ => Some (v ++ [(x, y); (x + len, y)%Z]) | _ => None end.
Definition toy_append (l prev : list (Z * Z)) (pos : Z) (w : xwidth Z) : option (list (Z * Z)) :=
  Some (l ++ map (fun p => (fst p, (snd p + (if (0 <? pos)%Z then xw_a w else - xw_a w))%Z)) prev).
Definition toy_read := read_map 0%Z Z.add digits digits ([] : list (Z * Z)) toy_geom (fun v x y _ => map (fun p => (fst p + x, snd p + y)%Z) v) (fun v => v) []
  toy_append (fun l => Z.of_nat (length l)) (fun l => l) SNone.
Definition xw := Elem "width" [("sOffset", "0"); ("a", "3"); ("b", "0"); ("c", "0"); ("d", "0")] [].
Definition xl (id : string) (k : list xml) := Elem "lane" [("id", id); ("type", "driving")] k.
Definition lnk (p s : string) := Elem "link" [] [Elem "predecessor" [("id", p)] []; Elem "successor" [("id", s)] []].
Definition xroad (id : string) (link : list xml) (secs : list xml) : xml :=
  Elem "road" [("name", ""); ("length", "10"); ("id", id); ("junction", "-1")]
    (Elem "link" [] link :: Elem "planView" [] [Elem "geometry" [("s", "0"); ("x", "0"); ("y", "0"); ("hdg", "0"); ("length", "10")] [Elem "line" [] []]] :: [Elem "lanes" [] secs]).
Definition xsec := Elem "laneSection" [("s", "0")] [Elem "left" [] [xl "2" [xw]; xl "1" [xw; Elem "userData" [] [Elem "vectorLane" [("travelDir", "forward")] []]]];
  Elem "center" [] [xl "0" []]; Elem "right" [] [xl "-1" [xw; lnk "1" "-1"]]].
Definition toy_file : xml := Elem "OpenDRIVE" [] [Elem "header" [] [];
  xroad "1" [Elem "successor" [("elementId", "2"); ("elementType", "road"); ("contactPoint", "end")] []] [xsec; xsec];
  xroad "2" [Elem "predecessor" [("elementId", "1"); ("elementType", "road")] []] [xsec];
  Elem "junction" [("id", "3")] [Elem "connection" [("id", "0"); ("incomingRoad", "1"); ("connectingRoad", "2")] [Elem "laneLink" [("from", "-1"); ("to", "1")] []]]].

Definition toy_res := Eval vm_compute in toy_read 0 toy_file.
Definition toy_map : xmap (Z * Z) := match toy_res with Some (m, _) => m | None => mkMap [] [] end.
Example C95_reads : toy_read 0 toy_file = Some (toy_map, 12%N) /\ length (lanes_list toy_map) = 12%nat /\ map fst (m_roads toy_map) = [1; 2]%N /\ length (m_junctions toy_map) = 1%nat.
Proof. vm_compute. auto. Qed.
(** The hypotheses of C95_graph hold for it, and the graph has the links of the file. *)
Example C95_graph_satisfiable :
  (forall rd lanes sec, In rd (findall toy_file "road") -> find1 rd "lanes" = Some lanes -> In sec (findall lanes "laneSection") ->
     distinct_ids digits sec /\ exists e, In e (file_lanes sec) /\ iattr digits e "id" = Some 0%Z) /\
  (forall rd lanes, In rd (findall toy_file "road") -> find1 rd "lanes" = Some lanes -> findall lanes "laneSection" <> []) /\
  (forall j cs k c, In (j, cs) (m_junctions toy_map) -> In (k, c) cs ->
     m_find (c_incoming c) (m_roads toy_map) <> None /\ m_find (c_connecting c) (m_roads toy_map) <> None) /\
  (forall r l, lane_of toy_map r l -> l_line l <> []).
Proof.
  assert (S : forall rd lanes, In rd (findall toy_file "road") -> find1 rd "lanes" = Some lanes -> findall lanes "laneSection" = [xsec; xsec] \/ findall lanes "laneSection" = [xsec]).
  { intros rd lanes I F. cbn in I. destruct I as [<-|[<-|[]]]; cbn in F; injection F as <-; cbn; auto. }
  split; [|split; [|split]].
  - intros rd lanes sec I F J. assert (sec = xsec) as -> by (destruct (S rd lanes I F) as [E|E]; rewrite E in J; cbn [In] in J; intuition congruence).
    split; [unfold distinct_ids; vm_compute; repeat constructor; cbn; intuition discriminate|]. exists (xl "0" []). split; [vm_compute; auto|reflexivity].
  - intros rd lanes I F E. destruct (S rd lanes I F) as [Q|Q]; rewrite Q in E; discriminate.
  - intros j cs k c I J. vm_compute in I. destruct I as [E|[]]. injection E as <- <-. cbn in J. destruct J as [E|[]]. injection E as <- <-. cbn. split; discriminate.
  - intros r l (s & (rd & I & J) & K) E. vm_compute in I. destruct I as [I|[I|[]]]; injection I as <- <-; cbn in J;
      repeat match type of J with _ \/ _ => destruct J as [<-|J] | False => destruct J end; cbn in K;
      repeat match type of K with _ \/ _ => destruct K as [K|K]; [injection K as Hid <-; discriminate E|] | False => destruct K end.
Qed.
(** Both roads' lanes -1 are linked; a road that repeats a number replaces the earlier one; a
    geometry of another kind, a missing name or a gap between lanes and there is no map. *)
Example C95_links : exists a b, lane_of toy_map 1 a /\ lane_of toy_map 2 b /\ Spec_Roadgraph.road_link toy_map a b.
Proof.
  pose (r1 := match m_roads toy_map with (_, r) :: _ => r | _ => mkRoad (0%N, false) (0%N, false) [] end).
  pose (r2 := match m_roads toy_map with _ :: (_, r) :: _ => r | _ => mkRoad (0%N, false) (0%N, false) [] end).
  pose (s1 := hd [] (r_sections r1)). pose (s2 := hd [] (r_sections r2)).
  pose (d := mkLane 0 0 DRIVING FORWARD 0 0 None [] : xlane (Z * Z)).
  pose (a := snd (nth 2 s1 (0%N, d))). pose (b := snd (nth 2 s2 (0%N, d))).
  exists a, b. split; [exists s1; split; [exists r1; split; [left; reflexivity|left; reflexivity]|right; right; left; reflexivity]|].
  split; [exists s2; split; [exists r2; split; [right; left; reflexivity|left; reflexivity]|right; right; left; reflexivity]|].
  exists 1%N, r1, s1, s2. split; [left; reflexivity|]. split; [vm_compute; discriminate|]. split; [left; reflexivity|]. split; [right; right; left; reflexivity|].
  split; [split; [reflexivity|exists r2; split; [reflexivity|exists []; reflexivity]]|]. split; [right; right; left; reflexivity|]. split; [discriminate|reflexivity].
Qed.
Example C95_last_road_wins : option_map (fun x => map (fun kr => (fst kr, length (r_sections (snd kr)))) (m_roads (fst x)))
  (toy_read 0 (Elem "OpenDRIVE" [] [Elem "header" [] []; xroad "1" [] [xsec; xsec]; xroad "1" [] [xsec]])) = Some [(1%N, 1%nat)].
Proof. vm_compute. reflexivity. Qed.
Example C95_gap_rejected : toy_read 0 (Elem "OpenDRIVE" [] [Elem "header" [] []; xroad "1" [] [Elem "laneSection" [("s", "0")] [Elem "center" [] [xl "0" []]; Elem "right" [] [xl "-2" [xw]]]]]) = None.
Proof. vm_compute. reflexivity. Qed.
Example C96_no_width_reads : option_map (fun x => map (fun rl => (l_pos (snd rl), l_line (snd rl))) (lanes_list (fst x)))
  (toy_read 0 (Elem "OpenDRIVE" [] [Elem "header" [] []; xroad "1" [] [Elem "laneSection" [("s", "0")] [Elem "center" [] [xl "0" []]; Elem "right" [] [xl "-1" []]]]])) =
  Some [(0%Z, [(0, 0); (10, 0)]%Z); ((-1)%Z, [])].
Proof. vm_compute. reflexivity. Qed.
(** Reading again gives the same map with other lane ids (the counter goes on). *)
Example C95_second_read : option_map (fun x => map (fun rl => l_id (snd rl)) (lanes_list (fst x))) (toy_read 12 toy_file) = Some (map N.of_nat (seq 13 12)).
Proof. vm_compute. reflexivity. Qed.
