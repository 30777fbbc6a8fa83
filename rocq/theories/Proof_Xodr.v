(** Lemmas for C95, C96. *)
From Coq Require Import String List Arith NArith ZArith Bool Lia.
Import ListNotations.
From Verif Require Import Model_Map Proof_Map Model_Roadgraph Spec_Roadgraph Model_Xodr Spec_Xodr.
Local Open Scope string_scope.
Local Open Scope list_scope.

Ltac ob H x E := match type of H with obind ?a _ = _ => destruct a as [x|] eqn:E; [cbn [obind] in H|discriminate H] end.

Lemma omap_nth {A B} (f : A -> option B) : forall l l', omap f l = Some l' -> Forall2 (fun x y => f x = Some y) l l'.
Proof.
  induction l as [|x l IH]; intros l' H; cbn in H; [injection H as <-; constructor|].
  ob H y E1. ob H ys E2. injection H as <-. constructor; auto.
Qed.
Lemma uint32_some z k : uint32 z = Some k <-> z = Z.of_N k /\ (Z.of_N k < two32)%Z.
Proof.
  unfold uint32. destruct ((0 <=? z)%Z && (z <? two32)%Z) eqn:E.
  - apply andb_true_iff in E as [E1 E2]. apply Z.leb_le in E1. apply Z.ltb_lt in E2. split.
    + intros H. assert (k = Z.to_N z) by congruence. subst. rewrite Z2N.id by lia. auto.
    + intros [-> _]. now rewrite N2Z.id.
  - split; [discriminate|]. intros [-> L]. assert (0 <=? Z.of_N k = true)%Z by (apply Z.leb_le; lia). assert (Z.of_N k <? two32 = true)%Z by (apply Z.ltb_lt; lia).
    rewrite H, H0 in E. discriminate.
Qed.
Lemma int32_some z k : int32 z = Some k <-> z = k /\ (- 2147483648 <= k <= 2147483647)%Z.
Proof.
  unfold int32. destruct ((-2147483648 <=? z)%Z && (z <=? 2147483647)%Z) eqn:E.
  - apply andb_true_iff in E as [E1 E2]. apply Z.leb_le in E1. apply Z.leb_le in E2. split; [intros H; assert (k = z) by congruence; subst; lia|]. intros [-> _]. reflexivity.
  - split; [discriminate|]. intros [-> L]. apply andb_false_iff in E as [E|E]; apply Z.leb_gt in E; lia.
Qed.

Section Proofs.
Context {F Line PV P : Type}.
Variables (fzero : F) (fadd : F -> F -> F).
Variable to_float : string -> option F.
Variable to_int : string -> option Z.
Variable pv_empty : PV.
Variable pv_geom : PV -> xgeom F -> option PV.
Variable pv_shift : PV -> F -> F -> F -> PV.
Variable ref_line : PV -> Line.
Variable empty_line : Line.
Variable append : Line -> Line -> Z -> xwidth F -> option Line.
Variable line_len : Line -> F.
Variable points : Line -> list P.
Variable s_inc : sinc F.
Notation off_t := (F * (F * F * F * F))%type.
Notation int_attr := (iattr to_int).
Notation lane_widths := (lane_widths fzero to_float).
Notation make_lane := (make_lane fzero fadd to_float to_int empty_line append points).
Notation make_lanes := (make_lanes fzero fadd to_float to_int empty_line append line_len points).
Notation make_section := (make_section fzero fadd to_float to_int empty_line append line_len points).
Notation make_sections := (make_sections fzero fadd to_float to_int empty_line append line_len points).
Notation make_road := (make_road fzero fadd to_float to_int pv_empty pv_geom pv_shift ref_line empty_line append line_len points s_inc).
Notation make_roads := (make_roads fzero fadd to_float to_int pv_empty pv_geom pv_shift ref_line empty_line append line_len points s_inc).
Notation read_map := (read_map fzero fadd to_float to_int pv_empty pv_geom pv_shift ref_line empty_line append line_len points s_inc).
Notation pieces := (pieces fadd append).

Lemma build_pieces off s_end prev pos : forall ws l l', build_line fadd append ws off s_end prev pos l = Some l' -> pieces off s_end prev pos ws l l'.
Proof.
  induction ws as [|[s [[[a b] c] d]] r IH]; intros l l' H; cbn [build_line] in H; [injection H as <-; constructor|].
  destruct off as [so [[[ao bo] co] d_o]]. cbn [plus] in H. ob H l1 E. econstructor; [|apply IH; exact H]. exact E.
Qed.

(** ** one lane *)
Lemma link_some e w p : says_link to_int e w p -> link_pos to_int e w = p.
Proof.
  intros (k & x & A & B & C & D). unfold link_pos. rewrite A. cbn [obind]. rewrite B. cbn [obind]. rewrite C. cbn [obind].
  rewrite (proj2 (int32_some p p)) by auto. reflexivity.
Qed.
Lemma link_none e w : (forall p, ~ says_link to_int e w p) -> link_pos to_int e w = 0%Z.
Proof.
  intros H. unfold link_pos. destruct (find1 e "link") as [k|] eqn:A; [|reflexivity]. cbn [obind].
  destruct (find1 k w) as [x|] eqn:B; [|reflexivity]. cbn [obind]. destruct (int_attr x "id") as [i|] eqn:C; [|reflexivity]. cbn [obind].
  destruct (int32 i) as [p|] eqn:D; [|reflexivity]. apply int32_some in D as [-> D]. exfalso. eapply H. exists k, x. eauto.
Qed.
Lemma travel_some e d : travel_dir e = Some d -> (d = FORWARD /\ says_dir e "forward") \/ (d = BACKWARD /\ says_dir e "backward").
Proof.
  unfold travel_dir. intros H. ob H u A. ob H v B. ob H t C.
  destruct (String.eqb_spec t "forward") as [->|]; [injection H as <-; left; split; [reflexivity|exists u, v; auto]|].
  destruct (String.eqb_spec t "backward") as [->|]; [injection H as <-; right; split; [reflexivity|exists u, v; auto]|discriminate].
Qed.
Lemma travel_says e d : says_dir e d -> travel_dir e = if String.eqb d "forward" then Some FORWARD else if String.eqb d "backward" then Some BACKWARD else None.
Proof. intros (u & v & A & B & C). unfold travel_dir. rewrite A. cbn [obind]. rewrite B. cbn [obind]. rewrite C. reflexivity. Qed.

Lemma make_lane_ok rd n lid lane s_end prev off j l ln : int_attr lane "id" = Some lid -> int_attr rd "junction" = Some j ->
  make_lane n lid lane s_end prev off j = Some (l, ln) ->
  l_id l = N.succ n /\ lane_as_in_file to_int rd lane l /\ l_pos l = lid /\ l_line l = points ln /\
  exists ws, lane_widths lane lid = Some ws /\ pieces off s_end prev lid ws empty_line ln.
Proof.
  intros I J H. unfold Model_Xodr.make_lane in H. ob H pos E1. ob H ws E2. ob H l0 E3. ob H g E4. ob H jj E5.
  apply int32_some in E1 as [<- R0]. injection H as <- <-.
  split; [reflexivity|]. split; [|split; [reflexivity|split; [reflexivity|exists ws; split; [reflexivity|apply build_pieces; exact E3]]]].
  constructor; cbn [l_pos l_type l_dir l_from l_to l_junction].
  - exact I.
  - unfold lane_type. destruct (attr lane "type") as [t|]; [|split; discriminate].
    destruct (String.eqb_spec t "driving") as [->|N1]; [tauto|]. destruct (String.eqb_spec t "border") as [->|N2]; split; try discriminate; congruence.
  - unfold lane_type. destruct (attr lane "type") as [t|]; [|split; discriminate].
    destruct (String.eqb_spec t "driving") as [->|N1]; [split; discriminate|]. destruct (String.eqb_spec t "border") as [->|N2]; [tauto|]. split; [discriminate|congruence].
  - unfold lane_type. destruct (attr lane "type") as [t|]; [|reflexivity].
    destruct (String.eqb_spec t "driving") as [->|N1]; [congruence|]. destruct (String.eqb_spec t "border") as [->|N2]; [congruence|reflexivity].
  - intros S. unfold lane_dir. now rewrite (travel_says _ _ S).
  - intros S. unfold lane_dir. now rewrite (travel_says _ _ S).
  - intros A B. unfold lane_dir. destruct (travel_dir lane) as [d|] eqn:T; [|reflexivity]. apply travel_some in T as [[_ T]|[_ T]]; contradiction.
  - apply link_some.
  - apply link_none.
  - apply link_some.
  - apply link_none.
  - exists j. split; [exact J|]. destruct (j =? -1)%Z; [congruence|]. cbn [obind] in E5. ob E5 k K. injection E5 as <-. apply uint32_some in K as [-> _]. now rewrite N2Z.id.
Qed.

(** ** the lanes of a section, in the order they are made *)
Definition good_lane (rd : xml) (road_len : F) (ref : Line) (off : off_t) (before : list (xlane P * Line)) (il : Z * xml) (x : xlane P * Line) : Prop :=
  lane_as_in_file to_int rd (snd il) (fst x) /\ l_pos (fst x) = fst il /\ l_line (fst x) = points (snd x) /\
  exists ws prev o e, lane_widths (snd il) (fst il) = Some ws /\ pieces o e prev (fst il) ws empty_line (snd x) /\
    (fst il = 0%Z -> prev = ref /\ o = no_off fzero /\ e = road_len) /\
    (Z.abs (fst il) = 1%Z -> prev = ref /\ o = off /\ e = road_len) /\
    ((2 <= Z.abs (fst il))%Z -> o = no_off fzero /\ e = line_len prev /\
       by_position before (if (0 <? fst il)%Z then fst il - 1 else fst il + 1)%Z = Some prev).

Lemma make_lanes_ok rd j road_len ref off : int_attr rd "junction" = Some j ->
  forall lanes n ws ws' n', (forall il, In il lanes -> int_attr (snd il) "id" = Some (fst il)) ->
  make_lanes n ws lanes road_len ref off j = Some (ws', n') ->
  exists new, ws' = ws ++ new /\ length new = length lanes /\ n' = (n + N.of_nat (length lanes))%N /\
    forall i il x, nth_error lanes i = Some il -> nth_error new i = Some x ->
      l_id (fst x) = (n + N.of_nat (S i))%N /\ good_lane rd road_len ref off (ws ++ firstn i new) il x.
Proof.
  intros J. induction lanes as [|[lid lane] r IH]; intros n ws ws' n' ID H; cbn [Model_Xodr.make_lanes] in H.
  - injection H as <- <-. exists []. rewrite app_nil_r. split; [reflexivity|]. split; [reflexivity|]. split; [cbn; lia|]. intros [|i] il x A; discriminate.
  - ob H x E. destruct x as [l ln].
    assert (ID0 : int_attr lane "id" = Some lid) by (apply (ID (lid, lane)); now left).
    destruct (IH (N.succ n) (ws ++ [(l, ln)]) ws' n' (fun il I => ID il (or_intror I)) H) as (new & -> & L & -> & G).
    exists ((l, ln) :: new). rewrite <- app_assoc. split; [reflexivity|]. split; [cbn; lia|]. split; [cbn [length]; lia|].
    intros [|i] il x A B; cbn [nth_error] in A, B.
    + injection A as <-. injection B as <-. cbn [fst snd firstn]. rewrite app_nil_r.
      destruct (Z.eqb_spec lid 0) as [Z0|Z0]; [|destruct (Z.eqb_spec lid (-1)) as [Z1|Z1]; cbn [orb] in E; [|destruct (Z.eqb_spec lid 1) as [Z2|Z2]]].
      * apply (make_lane_ok rd) in E as (I1 & I2 & I3 & I4 & ws0 & W1 & W2); auto. split; [lia|]. split; [exact I2|]. split; [exact I3|]. split; [exact I4|].
        exists ws0, ref, (no_off fzero), road_len. cbn [fst snd]. repeat split; auto; lia.
      * apply (make_lane_ok rd) in E as (I1 & I2 & I3 & I4 & ws0 & W1 & W2); auto. split; [lia|]. split; [exact I2|]. split; [exact I3|]. split; [exact I4|].
        exists ws0, ref, off, road_len. cbn [fst snd]. repeat split; auto; lia.
      * apply (make_lane_ok rd) in E as (I1 & I2 & I3 & I4 & ws0 & W1 & W2); auto. split; [lia|]. split; [exact I2|]. split; [exact I3|]. split; [exact I4|].
        exists ws0, ref, off, road_len. cbn [fst snd]. repeat split; auto; lia.
      * ob E prev BP. apply (make_lane_ok rd) in E as (I1 & I2 & I3 & I4 & ws0 & W1 & W2); auto. split; [lia|]. split; [exact I2|]. split; [exact I3|]. split; [exact I4|].
        exists ws0, prev, (no_off fzero), (line_len prev). cbn [fst snd]. repeat split; auto; lia.
    + destruct (G i il x A B) as [G1 G2]. split; [rewrite G1; lia|]. cbn [firstn]. replace (ws ++ (l, ln) :: firstn i new) with ((ws ++ [(l, ln)]) ++ firstn i new); [exact G2|].
      rewrite <- app_assoc. reflexivity.
Qed.

(** ** sorting and the dictionary of lanes *)
Lemma ins_in x : forall l y, In y (ins x l) <-> y = x \/ In y l.
Proof. clear.
  induction l as [|z l IH]; intros y; cbn [ins]; [cbn; intuition|]. destruct (Z.abs (fst x) <=? Z.abs (fst z))%Z; cbn [In]; [intuition|]. rewrite IH. intuition.
Qed.
Lemma ins_len x : forall l, length (ins x l) = S (length l).
Proof. clear. induction l as [|z l IH]; cbn [ins]; [reflexivity|]. destruct (Z.abs (fst x) <=? Z.abs (fst z))%Z; cbn [length]; [reflexivity|]. now rewrite IH. Qed.
Lemma dist_in : forall l y, In y (by_distance l) <-> In y l.
Proof. clear. induction l as [|x l IH]; intros y; cbn [by_distance]; [tauto|]. rewrite ins_in, IH. cbn. intuition. Qed.
Lemma dist_len : forall l, length (by_distance l) = length l.
Proof. clear. induction l as [|x l IH]; cbn [by_distance]; [reflexivity|]. rewrite ins_len. cbn. now rewrite IH. Qed.

Lemma ins_perm x : forall l, Permutation.Permutation (x :: l) (ins x l).
Proof. clear.
  induction l as [|z l IH]; cbn [ins]; [apply Permutation.Permutation_refl|]. destruct (Z.abs (fst x) <=? Z.abs (fst z))%Z; [apply Permutation.Permutation_refl|].
  eapply Permutation.perm_trans; [apply Permutation.perm_swap|]. constructor. exact IH.
Qed.
Lemma dist_perm : forall l, Permutation.Permutation l (by_distance l).
Proof. clear.
  induction l as [|x l IH]; cbn [by_distance]; [constructor|]. eapply Permutation.perm_trans; [constructor; exact IH|]. apply ins_perm.
Qed.

Lemma zset_in d k v : forall y, In y (zset d k v) -> y = (k, v) \/ In y d.
Proof. clear. induction d as [|[j w] r IH]; intros y H; cbn [zset] in H; [destruct H as [<-|[]]; auto|]. destruct (Z.eqb_spec j k); destruct H as [<-|H]; cbn; auto. destruct (IH _ H); auto. Qed.
Lemma zset_keys d k v : forall z, In z (map fst (zset d k v)) <-> z = k \/ In z (map fst d).
Proof. clear.
  induction d as [|[j w] r IH]; intros z; cbn [zset map fst In]; [intuition|]. destruct (Z.eqb_spec j k) as [->|]; cbn [map fst In]; [intuition|]. rewrite IH. intuition.
Qed.
Lemma zset_new d k v : ~ In k (map fst d) -> zset d k v = d ++ [(k, v)].
Proof. clear.
  induction d as [|[j w] r IH]; intros H; cbn [zset app]; [reflexivity|]. cbn in H. destruct (Z.eqb_spec j k); [tauto|]. now rewrite IH by tauto.
Qed.
Lemma zset_last d k v : In (k, v) (zset d k v).
Proof. clear. induction d as [|[j w] r IH]; cbn [zset]; [now left|]. destruct (Z.eqb_spec j k); [now left|now right]. Qed.

Lemma dict_ok : forall lanes d d', lane_dict to_int d lanes = Some d' ->
  (forall il, In il d' -> In il d \/ (In (snd il) lanes /\ int_attr (snd il) "id" = Some (fst il))) /\
  (forall e, In e lanes -> exists i, int_attr e "id" = Some i /\ In i (map fst d')) /\
  (forall i, In i (map fst d) -> In i (map fst d')) /\
  (NoDup (map Some (map fst d) ++ map (fun e => int_attr e "id") lanes) -> map snd d' = map snd d ++ lanes).
Proof.
  clear - to_int. induction lanes as [|e r IH]; intros d d' H; cbn [lane_dict] in H.
  - injection H as <-. repeat split; auto; [intros e []|intros; cbn; now rewrite app_nil_r].
  - ob H i E. destruct (IH _ _ H) as (A & B & C & D). repeat split.
    + intros il I. destruct (A il I) as [J|[J K]]; [|right; split; [now right|exact K]].
      apply zset_in in J as [->|J]; [right; cbn; auto|auto].
    + intros x [<-|I]; [exists i; split; [exact E|]; apply C, zset_keys; auto|apply B, I].
    + intros j J. apply C, zset_keys. auto.
    + cbn [map]. intros N.
      assert (NI : ~ In i (map fst d)).
      { intros I. apply NoDup_remove_2 in N. apply N. apply in_or_app. left. rewrite E. now apply in_map. }
      rewrite zset_new in D by exact NI. rewrite D.
      * rewrite map_app, <- app_assoc. reflexivity.
      * rewrite map_app, map_app. cbn [map fst]. rewrite <- app_assoc. cbn [app]. rewrite E in N. exact N.
Qed.

Lemma section_lanes_ok sec ls : section_lanes to_int sec = Some ls ->
  (forall il, In il ls -> In (snd il) (file_lanes sec) /\ int_attr (snd il) "id" = Some (fst il)) /\
  (forall e, In e (file_lanes sec) -> exists i, int_attr e "id" = Some i /\ In i (map fst ls)) /\
  (distinct_ids to_int sec -> map snd ls = file_lanes sec).
Proof.
  clear - to_int. unfold section_lanes, file_lanes, distinct_ids. intros H. ob H gs E. injection H as <-. apply omap_nth in E. revert E.
  unfold file_lanes. generalize (findall sec "left" ++ findall sec "center" ++ findall sec "right"). intros l E.
  induction E as [|g d l gs H E IH]; cbn [concat flat_map map]; [split; [intros x []|split; [intros x []|reflexivity]]|].
  destruct IH as (A & B & C). apply dict_ok in H as (A' & B' & _ & D'). split; [|split].
  - intros il H. apply in_app_or in H as [I|I].
    + destruct (A' _ I) as [[]|[J K]]. split; [apply in_or_app; now left|exact K].
    + destruct (A _ I) as [J K]. split; [apply in_or_app; now right|exact K].
  - intros e I. apply in_app_or in I as [I|I].
    + destruct (B' _ I) as (i & I1 & I2). exists i. split; [exact I1|]. rewrite map_app. apply in_or_app. now left.
    + destruct (B _ I) as (i & I1 & I2). exists i. split; [exact I1|]. rewrite map_app. apply in_or_app. now right.
  - intros N. rewrite map_app in N |- *. rewrite D', C; [reflexivity| |].
    + clear - N. induction (map (fun e => int_attr e "id") (findall g "lane")); cbn in *; [exact N|]. inversion N; auto.
    + cbn. clear - N. induction (map (fun e => int_attr e "id") (findall g "lane")) as [|x r IHr]; cbn in *; [constructor|]. inversion N; subst. constructor; [|auto]. intros I. apply H1. apply in_or_app. now left.
Qed.

(** ** sections *)
Definition keyed (x : xlane P * Line) : N * xlane P := (l_id (fst x), fst x).
Definition nseq (n : N) (len : nat) : list N := map (fun i => (n + N.of_nat (S i))%N) (seq 0 len).
Lemma nseq_snoc n len : nseq n (S len) = nseq n len ++ [(n + N.of_nat (S len))%N].
Proof. unfold nseq. rewrite seq_S, map_app. reflexivity. Qed.
Lemma nseq_in n len k : In k (nseq n len) <-> (n < k <= n + N.of_nat len)%N.
Proof.
  unfold nseq. rewrite in_map_iff. split.
  - intros (i & <- & I). apply in_seq in I. lia.
  - intros H. exists (N.to_nat (k - n) - 1)%nat. split; [lia|]. apply in_seq. lia.
Qed.
Lemma nseq_nodup n len : NoDup (nseq n len).
Proof. unfold nseq. apply FinFun.Injective_map_NoDup; [intros a b H; lia|apply seq_NoDup]. Qed.
Lemma nseq_app n a b : nseq n (a + b) = nseq n a ++ nseq (n + N.of_nat a)%N b.
Proof.
  induction b as [|b IH]; [rewrite Nat.add_0_r; cbn; now rewrite app_nil_r|].
  rewrite Nat.add_succ_r, nseq_snoc, IH, nseq_snoc, app_assoc. f_equal. f_equal. lia.
Qed.

Lemma m_insert_big {V} k (v : V) : forall m, (forall q, In q m -> (fst q < k)%N) -> m_insert k v m = m ++ [(k, v)].
Proof.
  induction m as [|[k' v'] r IH]; intros H; cbn [m_insert app]; [reflexivity|].
  assert (L : (k' < k)%N) by (apply (H (k', v')); now left).
  replace (k <? k')%N with false by (symmetry; apply N.ltb_ge; lia). replace (k =? k')%N with false by (symmetry; apply N.eqb_neq; lia).
  rewrite IH; [reflexivity|]. intros q I. apply H. now right.
Qed.
Lemma to_section_keyed n : forall ws, map (fun x => l_id (fst x)) ws = nseq n (length ws) -> to_section ws = map keyed ws.
Proof.
  intros ws. unfold to_section. induction ws as [|x ws IH] using rev_ind; intros H; [reflexivity|].
  rewrite app_length in H. cbn [length] in H. replace (length ws + 1)%nat with (S (length ws)) in H by lia. rewrite nseq_snoc, map_app in H. cbn [map] in H.
  apply app_inj_tail in H as [H1 H2]. rewrite fold_left_app, IH by exact H1. cbn [fold_left]. unfold sec_add. rewrite m_insert_big, map_app; [reflexivity|].
  intros q I. apply in_map_iff in I as (y & <- & I). unfold keyed. cbn [fst].
  assert (J : In (l_id (fst y)) (nseq n (length ws))) by (rewrite <- H1; apply (in_map (fun x => l_id (fst x))); exact I). apply nseq_in in J. lia.
Qed.
Lemma nseq_sorted (ws : list (xlane P * Line)) : forall n, map (fun x => l_id (fst x)) ws = nseq n (length ws) -> m_sorted (map keyed ws).
Proof.
  induction ws as [|x ws IH]; intros n H; cbn [map]; [constructor|].
  assert (E : nseq n (length (x :: ws)) = (n + 1)%N :: nseq (n + 1)%N (length ws)).
  { cbn [length]. replace (S (length ws)) with (1 + length ws)%nat by lia. rewrite nseq_app. reflexivity. }
  rewrite E in H. cbn [map] in H. injection H as H1 H2. constructor; [eapply IH; exact H2|].
  apply Forall_forall. intros q I. apply in_map_iff in I as (y & <- & I). unfold keyed. cbn [fst].
  assert (J : In (l_id (fst y)) (nseq (n + 1)%N (length ws))) by (rewrite <- H2; apply (in_map (fun x => l_id (fst x))); exact I). apply nseq_in in J. lia.
Qed.

(** A section as make_section builds it. *)
Definition made_section (rd sec : xml) (rl : F) (ref : Line) (off : off_t) (n : N) (s : section P) (n' : N) : Prop :=
  exists ls new, section_lanes to_int sec = Some ls /\ s = map keyed new /\ length new = length ls /\
    n' = (n + N.of_nat (length ls))%N /\ map (fun x => l_id (fst x)) new = nseq n (length new) /\
    forall i il x, nth_error (by_distance ls) i = Some il -> nth_error new i = Some x -> good_lane rd rl ref off (firstn i new) il x.

Lemma make_section_ok rd sec rlo ref off j n s n' : int_attr rd "junction" = Some j ->
  make_section n sec rlo ref off j = Some (s, n') ->
  exists rl, made_section rd sec rl ref off n s n' /\ (s <> [] -> rlo = Some rl).
Proof.
  intros J H. unfold Model_Xodr.make_section in H. ob H ss E1. ob H ls E2.
  destruct ls as [|il0 r] eqn:EL.
  { assert (s = []) by congruence. assert (n' = n) by congruence. subst. exists fzero. split; [|congruence].
    exists [], []. split; [exact E2|]. split; [reflexivity|]. split; [reflexivity|]. split; [cbn; lia|]. split; [reflexivity|]. intros [|i] il x A; discriminate. }
  rewrite <- EL in *. assert (H' : obind rlo (fun rl => obind (make_lanes n [] (by_distance ls) rl ref off j) (fun x => Some (to_section (fst x), snd x))) = Some (s, n')).
  { rewrite EL in *. exact H. } clear H. rename H' into H.
  ob H rl E3. ob H x E4. destruct x as [ws nn]. cbn [fst snd] in H.
  destruct (section_lanes_ok sec ls E2) as (A & _).
  apply (make_lanes_ok rd) in E4 as (new & -> & L & -> & G); [|exact J|intros il I; apply (proj1 (dist_in _ _)) in I; apply A, I].
  cbn [app] in H, G. rewrite dist_len in *.
  assert (IDS : map (fun x => l_id (fst x)) new = nseq n (length new)).
  { apply nth_ext with (d := 0%N) (d' := 0%N).
    - unfold nseq. rewrite !map_length, seq_length. reflexivity.
    - intros i Hi. rewrite map_length in Hi.
      destruct (nth_error new i) as [x|] eqn:X; [|apply nth_error_None in X; lia].
      destruct (nth_error (by_distance ls) i) as [il|] eqn:Y; [|apply nth_error_None in Y; rewrite dist_len in Y; lia].
      destruct (G i il x Y X) as [G1 _]. unfold nseq.
      rewrite (nth_indep _ 0%N (l_id (fst x))) by (rewrite map_length; exact Hi). rewrite (map_nth (fun x => l_id (fst x))).
      rewrite (nth_error_nth _ _ _ X), G1.
      rewrite (nth_indep _ 0%N ((fun i => n + N.of_nat (S i))%N 0%nat)) by (rewrite map_length, seq_length; exact Hi).
      rewrite (map_nth (fun i => n + N.of_nat (S i))%N), seq_nth by exact Hi. reflexivity. }
  exists rl. split; [|intros _; reflexivity]. exists ls, new. split; [exact E2|].
  assert (ES : s = to_section new) by congruence. split; [rewrite ES; eapply to_section_keyed; exact IDS|].
  split; [exact L|]. split; [congruence|]. split; [exact IDS|]. intros i il x Y X. apply (G i il x Y X).
Qed.

Lemma made_in rd sec rl ref off n s n' : made_section rd sec rl ref off n s n' ->
  (forall k l, In (k, l) s -> k = l_id l) /\ m_sorted s /\ map (fun kl => l_id (snd kl)) s = nseq n (length s) /\ n' = (n + N.of_nat (length s))%N.
Proof.
  intros (ls & new & _ & -> & L & -> & I & _). rewrite map_length. split; [|split; [eapply nseq_sorted; exact I|split; [|rewrite L; reflexivity]]].
  - intros k l H. apply in_map_iff in H as (x & E & _). unfold keyed in E. congruence.
  - rewrite map_map. exact I.
Qed.

Lemma made_as_in_file rd sec rl ref off n s n' : made_section rd sec rl ref off n s n' -> section_as_in_file to_int rd sec s.
Proof.
  intros (ls & new & E & -> & L & _ & _ & G). destruct (section_lanes_ok sec ls E) as (A & B & C).
  assert (K : forall il, In il ls -> exists l, in_section l (map keyed new) /\ lane_as_in_file to_int rd (snd il) l).
  { intros il I. apply (proj2 (dist_in _ _)) in I. apply In_nth_error in I as [i I].
    destruct (nth_error new i) as [x|] eqn:X.
    - destruct (G i il x I X) as (G1 & _). exists (fst x). split; [|exact G1]. unfold in_section. apply (in_map keyed). eapply nth_error_In. exact X.
    - apply nth_error_None in X. assert (i < length (by_distance ls))%nat by (apply nth_error_Some; congruence). rewrite dist_len in *. lia. }
  constructor.
  - intros l I. unfold in_section in I. apply in_map_iff in I as (x & E1 & I). unfold keyed in E1. assert (l = fst x) by congruence. subst l.
    apply In_nth_error in I as [i X]. destruct (nth_error (by_distance ls) i) as [il|] eqn:Y.
    + destruct (G i il x Y X) as (G1 & _). exists (snd il). split; [|exact G1]. apply A. apply (proj1 (dist_in _ _)). eapply nth_error_In. exact Y.
    + apply nth_error_None in Y. assert (i < length new)%nat by (apply nth_error_Some; congruence). rewrite dist_len in *. lia.
  - intros e I. destruct (B e I) as (i & B1 & B2). apply in_map_iff in B2 as (il & <- & B2). destruct (K il B2) as (l & K1 & K2).
    destruct (A il B2) as [A1 A2]. exists l, (snd il). split; [exact K1|]. split; [exact A1|]. split; [congruence|exact K2].
  - intros D e I. rewrite <- (C D) in I. apply in_map_iff in I as (il & <- & I). apply K, I.
  - intros D. rewrite map_length, L, <- (C D), map_length. reflexivity.
Qed.

(** no lane is further out than its inner neighbour *)
Lemma by_position_in ws p l : by_position (P := P) ws p = Some l -> exists x : xlane P * Line, In x ws /\ l_pos (fst x) = p /\ snd x = l.
Proof.
  unfold by_position. assert (K : forall ws acc, fold_left (fun acc (x : xlane P * Line) => if (p =? l_pos (fst x))%Z then Some (snd x) else acc) ws acc = Some l ->
    acc = Some l \/ exists x, In x ws /\ l_pos (fst x) = p /\ snd x = l).
  { clear. induction ws as [|x r IH]; intros acc H; cbn [fold_left] in H; [auto|]. destruct (IH _ H) as [E|(y & A & B)].
    - destruct (Z.eqb_spec p (l_pos (fst x))); [right; exists x; split; [now left|split; congruence]|auto].
    - right. exists y. split; [now right|exact B]. }
  intros H. destruct (K _ _ H) as [E|E]; [discriminate|exact E].
Qed.
Lemma made_inner rd sec rl ref off n s n' l : made_section rd sec rl ref off n s n' -> in_section l s -> (2 <= Z.abs (l_pos l))%Z ->
  exists l', in_section l' s /\ l_pos l' = inward (l_pos l) /\ (l_id l' < l_id l)%N.
Proof.
  intros (ls & new & E & -> & L & _ & IDS & G) I Hp. unfold in_section in I. apply in_map_iff in I as (x & E1 & I). unfold keyed in E1. assert (l = fst x) by congruence. subst l.
  apply In_nth_error in I as [i X]. destruct (nth_error (by_distance ls) i) as [il|] eqn:Y.
  2:{ apply nth_error_None in Y. assert (i < length new)%nat by (apply nth_error_Some; congruence). rewrite dist_len in *. lia. }
  destruct (G i il x Y X) as (_ & G2 & _ & ws & prev & o & e & _ & _ & _ & _ & G3). rewrite G2 in *. destruct (G3 Hp) as (_ & _ & BP).
  apply by_position_in in BP as (y & Y1 & Y2 & _). exists (fst y).
  assert (YN : exists k, (k < i)%nat /\ nth_error new k = Some y).
  { apply In_nth_error in Y1 as [k Y1]. exists k. assert (K : (k < length (firstn i new))%nat) by (apply nth_error_Some; congruence).
    rewrite firstn_length in K. split; [lia|]. rewrite <- (firstn_skipn i new). rewrite nth_error_app1; [exact Y1|rewrite firstn_length; lia]. }
  destruct YN as (k & K1 & K2). split; [unfold in_section; apply (in_map keyed); eapply nth_error_In; exact K2|]. split.
  - rewrite Y2. reflexivity.
  - assert (ID : forall i x, nth_error new i = Some x -> l_id (fst x) = (n + N.of_nat (S i))%N).
    { intros i0 x0 X0. assert (X1 : nth_error (map (fun x => l_id (fst x)) new) i0 = Some (l_id (fst x0))) by exact (map_nth_error (fun x : xlane P * Line => l_id (fst x)) i0 new X0).
      rewrite IDS in X1. unfold nseq in X1. assert (i0 < length new)%nat by (apply nth_error_Some; congruence).
      rewrite (map_nth_error _ _ (seq 0 (length new)) (d := i0)) in X1; [congruence|]. rewrite (nth_error_nth' _ 0%nat) by (rewrite seq_length; lia). rewrite seq_nth by lia. reflexivity. }
    rewrite (ID _ _ K2), (ID _ _ X). lia.
Qed.

(** ** roads *)
Definition ids_of_road (r : road P) : list N := flat_map (fun s => map (fun kl => l_id (snd kl)) s) (r_sections r).
Definition made_sections_of (rd : xml) (ref : Line) (off : off_t) (secs : list xml) (ss : list (section P)) : Prop :=
  Forall2 (fun sec s => exists rl n n', made_section rd sec rl ref off n s n' /\ (s <> [] -> fattr to_float rd "length" = Some rl)) secs ss.
Lemma make_sections_ok rd ref off j : int_attr rd "junction" = Some j ->
  forall secs n ss n', make_sections n secs (fattr to_float rd "length") ref off j = Some (ss, n') ->
  made_sections_of rd ref off secs ss /\ (n <= n')%N /\
  flat_map (fun s => map (fun kl => l_id (snd kl)) s) ss = nseq n (N.to_nat (n' - n)).
Proof.
  intros J. induction secs as [|sec secs IH]; intros n ss n' H; cbn [Model_Xodr.make_sections] in H.
  - injection H as <- <-. split; [constructor|]. split; [lia|]. rewrite N.sub_diag. reflexivity.
  - ob H x E1. destruct x as [s n1]. ob H x E2. destruct x as [ss' n2]. assert (ss = s :: ss') by congruence. assert (n' = n2) by congruence. subst. clear H.
    destruct (IH _ _ _ E2) as (A & B & C). apply (make_section_ok rd) in E1 as (rl & M & Rl); [|exact J].
    destruct (made_in _ _ _ _ _ _ _ _ M) as (_ & _ & M1 & M2). split; [|split; [lia|]].
    + constructor; [exists rl, n, n1; auto|exact A].
    + cbn [flat_map]. rewrite C, M1. replace (N.to_nat (n2 - n)) with (length s + N.to_nat (n2 - n1))%nat by lia. rewrite nseq_app. f_equal. f_equal. exact M2.
Qed.

Lemma road_link_ok rd which : link_as_in_file to_int rd which (road_link to_int rd which).
Proof.
  split.
  - intros k t (l & e & A & B & C & D & T). unfold road_link. rewrite A. cbn [obind]. rewrite B. cbn [obind]. rewrite C. cbn [obind].
    rewrite (proj2 (uint32_some _ k)) by auto. cbn [obind]. rewrite T. reflexivity.
  - intros N. unfold road_link. destruct (find1 rd "link") as [l|] eqn:A; [|reflexivity]. cbn [obind].
    destruct (find1 l which) as [e|] eqn:B; [|reflexivity]. cbn [obind]. destruct (int_attr e "elementId") as [i|] eqn:C; [|reflexivity]. cbn [obind].
    destruct (uint32 i) as [k|] eqn:D; [|reflexivity]. cbn [obind]. destruct (attr e "elementType") as [t|] eqn:T; [|reflexivity].
    apply uint32_some in D as [-> D]. exfalso. apply (N k t). exists l, e. auto.
Qed.

Definition made_road (hdr : option (F * F * F)) (rd : xml) (k : N) (rr : road P) : Prop :=
  road_number to_int rd k /\ (Z.of_N k < two32)%Z /\ r_succ rr = road_link to_int rd "successor" /\ r_pred rr = road_link to_int rd "predecessor" /\
  (exists nm, attr rd "name" = Some nm) /\
  exists lanes off pv, find1 rd "lanes" = Some lanes /\ lane_offset fzero to_float lanes = Some off /\
    plan_view to_float pv_empty pv_geom pv_shift s_inc hdr rd = Some pv /\
    made_sections_of rd (ref_line pv) off (findall lanes "laneSection") (r_sections rr).
Lemma make_road_ok hdr rd n k rr n' : make_road n hdr rd = Some (k, rr, n') ->
  made_road hdr rd k rr /\ (n <= n')%N /\ ids_of_road rr = nseq n (N.to_nat (n' - n)).
Proof.
  unfold Model_Xodr.make_road. intros H. ob H lanes E1. ob H off E2. ob H rid E3. ob H nm E4. ob H pv E5. ob H j E6. ob H x E7. destruct x as [secs n1].
  assert (rid = k) by congruence. assert (n' = n1) by congruence. assert (R : rr = mkRoad (road_link to_int rd "successor") (road_link to_int rd "predecessor") secs) by congruence. clear H. subst rid n1 rr.
  apply (make_sections_ok rd) in E7 as (A & B & C); [|exact E6]. split; [|split; [exact B|exact C]].
  ob E3 z E3'. apply uint32_some in E3 as [-> E3]. split; [exact E3'|]. split; [exact E3|]. split; [reflexivity|]. split; [reflexivity|]. split; [exists nm; exact E4|].
  exists lanes, off, pv. auto.
Qed.
Lemma made_road_as_in_file hdr rd k rr : made_road hdr rd k rr -> road_as_in_file to_int rd rr.
Proof.
  intros (_ & _ & A & B & _ & lanes & off & pv & C & _ & _ & D). constructor.
  - rewrite A. apply road_link_ok.
  - rewrite B. apply road_link_ok.
  - exists lanes. split; [exact C|]. revert D. unfold made_sections_of. generalize (findall lanes "laneSection") (r_sections rr). intros q q' D. induction D as [|sec s l l' (rl & n & n' & M & _) D IH]; constructor; auto. eapply made_as_in_file. exact M.
Qed.

Lemma nodup_insert {V} (f : V -> list N) k v : forall m, NoDup (f v) -> NoDup (flat_map (fun kr => f (snd kr)) m) ->
  (forall x, In x (f v) -> ~ In x (flat_map (fun kr => f (snd kr)) m)) -> NoDup (flat_map (fun kr => f (snd kr)) (m_insert k v m)) /\
  (forall x, In x (flat_map (fun kr => f (snd kr)) (m_insert k v m)) -> In x (f v) \/ In x (flat_map (fun kr => f (snd kr)) m)).
Proof.
  assert (AP : forall a b : list N, NoDup a -> NoDup b -> (forall x, In x a -> ~ In x b) -> NoDup (a ++ b)).
  { clear. induction a as [|x a IH]; intros b A B D; cbn; [exact B|]. inversion A; subst. constructor.
    - intros I. apply in_app_or in I as [I|I]; [contradiction|]. apply (D x); [now left|exact I].
    - apply IH; auto. intros y I. apply D. now right. }
  assert (AI : forall a b : list N, NoDup (a ++ b) -> NoDup a /\ NoDup b /\ (forall x, In x a -> ~ In x b)).
  { clear. induction a as [|x a IH]; intros b A; cbn in *; [repeat split; auto; constructor|]. inversion A; subst. destruct (IH _ H2) as (I1 & I2 & I3).
    split; [constructor; [intros I; apply H1; apply in_or_app; now left|exact I1]|]. split; [exact I2|]. intros y [<-|I]; [intros J; apply H1; apply in_or_app; now right|apply I3, I]. }
  induction m as [|[k' v'] r IH]; intros Nv Nm D; cbn [m_insert flat_map snd].
  - rewrite app_nil_r. split; [exact Nv|auto].
  - cbn [flat_map snd] in Nm, D. destruct (AI _ _ Nm) as (N1 & N2 & N3).
    destruct (k <? k')%N; [|destruct (k =? k')%N]; cbn [flat_map snd].
    + split; [apply AP; auto|]. intros x I. apply in_app_or in I. exact I.
    + split; [apply AP; auto; intros x I J; apply (D x I); apply in_or_app; now right|]. intros x I. apply in_app_or in I as [I|I]; [now left|right; apply in_or_app; now right].
    + destruct IH as [IH1 IH2]; auto. { intros x I J. apply (D x I). apply in_or_app. now right. }
      split.
      * apply AP; auto. intros x I J. destruct (IH2 x J) as [J'|J']; [apply (D x J'); apply in_or_app; now left|apply (N3 x I J')].
      * intros x I. apply in_app_or in I as [I|I]; [right; apply in_or_app; now left|]. destruct (IH2 x I); [now left|right; apply in_or_app; now right].
Qed.

Definition road_ids (m : kmap (road P)) : list N := flat_map (fun kr => ids_of_road (snd kr)) m.
Lemma make_roads_ok hdr : forall roads n m m' n', m_sorted m -> NoDup (road_ids m) -> (forall x, In x (road_ids m) -> (x <= n)%N) ->
  make_roads n hdr roads m = Some (m', n') ->
  m_sorted m' /\ NoDup (road_ids m') /\ (n <= n')%N /\ (forall x, In x (road_ids m') -> In x (road_ids m) \/ (n < x <= n')%N) /\
  (forall k rr, m_find k m' = Some rr -> (exists rd, last_road to_int roads k rd /\ made_road hdr rd k rr) \/
     (m_find k m = Some rr /\ forall rd, In rd roads -> ~ road_number to_int rd k)) /\
  (forall k, m_find k m <> None -> m_find k m' <> None) /\
  (forall rd, In rd roads -> exists k, road_number to_int rd k /\ m_find k m' <> None).
Proof.
  induction roads as [|rd roads IH]; intros n m m' n' S ND LE H; cbn [Model_Xodr.make_roads] in H.
  - injection H as <- <-. split; [exact S|]. split; [exact ND|]. split; [lia|]. split; [auto|]. split; [intros k rr E; right; split; [exact E|intros rd []]|]. split; [auto|intros rd []].
  - ob H x E1. destruct x as [[k0 r0] n1]. cbn [fst snd] in H. apply make_road_ok in E1 as (M & L1 & I1).
    destruct (nodup_insert ids_of_road k0 r0 m) as [D1 D2]; [rewrite I1; apply nseq_nodup|exact ND| |].
    { intros x A B. rewrite I1 in A. apply nseq_in in A. apply LE in B. lia. }
    apply IH in H as (A1 & A2 & A3 & A4 & A5 & A6 & A7); [|apply m_insert_sorted; exact S|exact D1|].
    2:{ intros x A. apply D2 in A as [A|A]; [rewrite I1 in A; apply nseq_in in A; lia|apply LE in A; lia]. }
    split; [exact A1|]. split; [exact A2|]. split; [lia|]. split.
    { intros x A. destruct (A4 x A) as [B|B]; [|right; lia]. apply D2 in B as [B|B]; [rewrite I1 in B; apply nseq_in in B; right; lia|now left]. }
    split.
    { intros k rr E. destruct (A5 k rr E) as [(rd' & (pre & post & -> & B1 & B2) & C)|[B1 B2]].
      - left. exists rd'. split; [exists (rd :: pre), post; auto|exact C].
      - destruct (N.eq_dec k k0) as [->|NE].
        + rewrite m_find_insert_same in B1. injection B1 as <-. left. exists rd. split; [|exact M]. exists [], roads. split; [reflexivity|]. split; [apply M|exact B2].
        + rewrite m_find_insert_other in B1 by exact NE. right. split; [exact B1|]. intros r' [<-|I]; [|apply B2, I].
          intros Q. destruct M as (Q0 & _). unfold road_number in *. rewrite Q0 in Q. apply NE. assert (Z.of_N k0 = Z.of_N k) by congruence. lia. }
    split.
    { intros k K. apply A6. destruct (N.eq_dec k k0) as [->|NE]; [rewrite m_find_insert_same; discriminate|rewrite m_find_insert_other by exact NE; exact K]. }
    intros r' [<-|I]; [|apply A7, I]. exists k0. split; [apply M|]. apply A6. rewrite m_find_insert_same. discriminate.
Qed.

(** ** the map *)
Lemma read_inv n root m n' : read_map n root = Some (m, n') ->
  exists hdr, header_offset to_float root = Some hdr /\ make_roads n hdr (findall root "road") [] = Some (m_roads m, n') /\
    exists js, omap (make_junction to_int) (findall root "junction") = Some js /\ m_junctions m = fold_left (fun m j => m_insert (fst j) (snd j) m) js [].
Proof.
  unfold Model_Xodr.read_map. intros H. ob H hdr E1. ob H x E2. destruct x as [rs n1]. ob H js E3.
  assert (n' = n1) by congruence. assert (m = mkMap rs (fold_left (fun m j => m_insert (fst j) (snd j) m) js [])) by congruence. subst. exists hdr. split; [reflexivity|].
  split; [exact E2|]. exists js. auto.
Qed.
Lemma read_roads n root m n' : read_map n root = Some (m, n') ->
  exists hdr, m_sorted (m_roads m) /\ NoDup (road_ids (m_roads m)) /\ (n <= n')%N /\ (forall x, In x (road_ids (m_roads m)) -> (n < x <= n')%N) /\
    (forall k rr, m_find k (m_roads m) = Some rr -> exists rd, last_road to_int (findall root "road") k rd /\ made_road hdr rd k rr) /\
    (forall rd, In rd (findall root "road") -> exists k, road_number to_int rd k /\ m_find k (m_roads m) <> None).
Proof.
  intros H. apply read_inv in H as (hdr & _ & H & _). exists hdr.
  apply make_roads_ok in H as (A1 & A2 & A3 & A4 & A5 & _ & A7); [|constructor|constructor|intros x []].
  split; [exact A1|]. split; [exact A2|]. split; [exact A3|]. split; [intros x I; destruct (A4 x I) as [[]|B]; exact B|].
  split; [|exact A7]. intros k rr E. destruct (A5 k rr E) as [B|[B _]]; [exact B|discriminate].
Qed.
Lemma lanes_list_ids (m : xmap P) : map (fun rl => l_id (snd rl)) (lanes_list m) = road_ids (m_roads m).
Proof.
  unfold lanes_list, sections_list, road_ids. induction (m_roads m) as [|[k r] l IH]; [reflexivity|]. cbn [flat_map fst snd].
  rewrite flat_map_app, map_app. f_equal; [|exact IH]. unfold ids_of_road. clear. induction (r_sections r) as [|s ss IH]; [reflexivity|].
  cbn [map flat_map fst snd]. rewrite map_app. f_equal; [|exact IH]. rewrite map_map. reflexivity.
Qed.
End Proofs.
