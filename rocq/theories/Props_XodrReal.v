(** C96 over the reals: where the borders of the lanes are. *)
From Coq Require Import Reals ZArith String List Bool Lra Lia.
From Verif Require Import Base_Real Base_Geom Model_Angle Model_Line Model_PlanView Spec_Line Spec_PlanView Proof_Line Proof_PlanView Props_Line Props_PlanView.
From Verif Require Import Model_Map Model_Roadgraph Spec_Roadgraph Model_Xodr Spec_Xodr Proof_Xodr Props_Xodr.
Import ListNotations.
Local Open Scope string_scope.
Local Open Scope list_scope.
Local Open Scope R_scope.

(** xodr_parser.py:287-310 with PlanView (plan_view.cpp); [cinc]: the keyword s_inc_curves (16). *)
Definition to_geom (cinc : R) (g : xgeom R) : geom :=
  match g with
  | XLine x y h len inc => GLine (x, y) h len inc
  | XArc x y h len k => GArc (x, y) h len k cinc
  | XSpiral x y h len k0 k1 => GSpiral (x, y) h len k0 k1 cinc
  end.
(** xodr_parser.py:396 with XodrLane::append (lane.cpp 41-66) *)
Definition real_append (simp : list pt -> R -> list pt) (fuel : nat) (l prev : line) (pos : Z) (w : xwidth R) : option line :=
  lane_append simp fuel l prev pos (mkLW (xw_start w) (xw_end w) (xw_a w) (xw_b w) (xw_c w) (xw_d w)) (2 / 10).

Section Real.
Variable to_float : string -> option R.
Variable to_int : string -> option Z.
Variables (FC FS : R -> R) (fuel : nat) (simp : list pt -> R -> list pt) (cinc : R) (s_inc : sinc R).
Definition real_geom (v : Model_PlanView.plan_view) (g : xgeom R) : option Model_PlanView.plan_view := pv_add FC FS fuel v (to_geom cinc g).
Definition real_read : N -> xml -> option (xmap pt * N) :=
  read_map 0 Rplus to_float to_int empty_plan_view real_geom pv_apply_offset pv_line Model_Line.empty_line (real_append simp fuel) line_length pts s_inc.
Notation pv_of := (plan_view_as_in_file to_float s_inc empty_plan_view real_geom pv_apply_offset).

Lemma widths_unique e pos a b : widths_as_in_file 0 to_float e pos a -> widths_as_in_file 0 to_float e pos b -> a = b.
Proof.
  unfold widths_as_in_file. destruct (_ && _)%bool; [congruence|]. intros A. revert b. induction A as [|w [s [[[c0 c1] c2] c3]] l l' W A IH]; intros b B; inversion B as [|w' r' l0 l0' W' B' E1 E2]; subst; [reflexivity|].
  f_equal; [|apply IH; assumption]. destruct r' as [s' [[[d0 d1] d2] d3]]. destruct W as (W1 & W2 & W3 & W4 & W5), W' as (V1 & V2 & V3 & V4 & V5). cbn [fst snd] in *. congruence.
Qed.
Lemma offset_unique e a b : offset_as_in_file 0 to_float e a -> offset_as_in_file 0 to_float e b -> a = b.
Proof.
  unfold offset_as_in_file. destruct (find1 e "laneOffset"); [|congruence]. destruct a as [s [[[a b1] c] d]], b as [s' [[[a' b1'] c'] d']]. cbn [fst snd].
  intros (W1 & W2 & W3 & W4 & W5) (V1 & V2 & V3 & V4 & V5). congruence.
Qed.

(** A lane of constant width [w] (one width record, from its start) on a road with the constant
    lane offset [o]: before the final simplification its border has one vertex per vertex of
    the simplified line inside, at the distance |w + o| (lanes +-1) or |w| (the others), on the
    lane's side.  The line inside is the reference line for lanes +-1, else the neighbour's
    border. *)
Theorem C96_constant_width n root m n' r s l w o :
  (forall l d, polyline_length (simp l d) <= polyline_length l) ->
  real_read n root = Some (m, n') -> section_of m r s -> in_section l s -> l_pos l <> 0%Z ->
  (forall rd lanes, last_road to_int (findall root "road") r rd -> find1 rd "lanes" = Some lanes ->
     offset_as_in_file 0 to_float lanes (0, (o, 0, 0, 0)) /\
     forall sec e, In sec (findall lanes "laneSection") -> In e (file_lanes sec) -> iattr to_int e "id" = Some (l_pos l) ->
       widths_as_in_file 0 to_float e (l_pos l) [(0, (w, 0, 0, 0))]) ->
  (forall rd pv len, last_road to_int (findall root "road") r rd -> pv_of root rd pv -> fattr to_float rd "length" = Some len ->
     polyline_length (pts (pv_line pv)) <= len) ->
  exists prev ds, let inner := simp (bg_unique prev) (1 / 1000) in let width := if (Z.abs (l_pos l) =? 1)%Z then w + o else w in
    (Z.abs (l_pos l) = 1%Z -> exists rd pv, last_road to_int (findall root "road") r rd /\ pv_of root rd pv /\ prev = pts (pv_line pv)) /\
    ((2 <= Z.abs (l_pos l))%Z -> exists i, in_section i s /\ l_pos i = inward (l_pos l) /\ prev = l_line i) /\
    ((2 <= length inner)%nat -> l_line l = simp ds (1 / 1000) /\ length ds = length inner /\
      (forall i v q, nth_error inner i = Some v -> nth_error ds i = Some q -> dist v q = Rabs width) /\
      (forall i a b q, nth_error inner i = Some a -> nth_error inner (S i) = Some b -> nth_error ds (S i) = Some q ->
         left_offset a b q (if (0 <? l_pos l)%Z then width else - width)) /\
      (forall a b q, nth_error inner 0 = Some a -> nth_error inner 1 = Some b -> nth_error ds 0 = Some q ->
         left_offset a b q (if (0 <? l_pos l)%Z then width else - width))).
Proof.
  intros SH H I L NZ HW HL. unfold real_read in H.
  destruct (C96_borders _ _ _ _ _ _ _ _ _ _ _ _ _ _ _ _ _ _ _ _ H I L) as (rd & lanes & sec & e & off & pv & ws & prev & b & A1 & A2 & A3 & A4 & A5 & A6 & A7 & W & B & _ & C1 & C2).
  destruct (HW rd lanes A1 A2) as [HO HW']. specialize (HW' sec e A3 A4 (la_pos _ _ _ _ A5)).
  pose proof (widths_unique _ _ _ _ W HW') as ->. pose proof (offset_unique _ _ _ A6 HO) as ->. clear W HW' A6 HO HW.
  set (wd := if (Z.abs (l_pos l) =? 1)%Z then w + o else w).
  assert (K : exists en, polyline_length (pts prev) <= en /\
     lane_append simp fuel Model_Line.empty_line prev (l_pos l) (mkLW 0 en wd 0 0 0) (2 / 10) = Some b).
  { unfold wd. destruct (Z_le_gt_dec 2 (Z.abs (l_pos l))) as [G|G].
    - destruct (C2 G) as (_ & Q). replace (Z.abs (l_pos l) =? 1)%Z with false by (symmetry; apply Z.eqb_neq; lia).
      inversion Q as [|s0 a0 b0 c0 d0 r0 l0 l1 l2 Q1 Q2]; subst. inversion Q2; subst. cbn [fst snd] in Q1. rewrite !Rplus_0_r in Q1. exists (line_length prev). split; [apply Rle_refl|exact Q1].
    - destruct C1 as (-> & len & Ln & Q); [lia|]. replace (Z.abs (l_pos l) =? 1)%Z with true by (symmetry; apply Z.eqb_eq; lia).
      inversion Q as [|s0 a0 b0 c0 d0 r0 l0 l1 l2 Q1 Q2]; subst. inversion Q2; subst. cbn [fst snd] in Q1. rewrite !Rplus_0_r in Q1. exists len. split; [apply (HL rd pv len A1 A7 Ln)|exact Q1]. }
  destruct K as (en & En & K).
  assert (SD : forall x, (if (0 <? l_pos l)%Z then x else - x) = side (l_pos l) * x) by (intros x; unfold side; destruct (0 <? l_pos l)%Z; ring).
  destruct (le_lt_dec 2 (length (simp (bg_unique (pts prev)) (1 / 1000)))) as [G2|G2].
  - destruct (C56_constant_width simp fuel prev (l_pos l) (mkLW 0 en wd 0 0 0) (2 / 10) (1 / 1000)) as (l1 & ds & X1 & X2 & _ & X4 & X5 & X6 & X7); cbn [lw_a lw_b lw_c lw_d lw_start lw_end]; auto.
    { eapply Rle_trans; [apply SH|]. rewrite plen_unique. exact En. }
    unfold lane_append in K. rewrite X1 in K. injection K as <-. cbn [pts append_linestring of_points Model_Line.empty_line app] in B.
    exists (pts prev), ds. cbv zeta. fold wd. split; [|split].
    + intros Q. destruct (C1 Q) as (-> & _). exists rd, pv. auto.
    + intros Q. destruct (C2 Q) as ((i & I1 & I2 & I3) & _). exists i. auto.
    + intros _. cbn [lw_a] in X5, X6, X7. split; [rewrite B; exact X2|]. split; [exact X4|]. split; [exact X5|]. rewrite !SD. split; [exact X6|exact X7].
  - exists (pts prev), []. cbv zeta. split; [|split].
    + intros Q. destruct (C1 Q) as (-> & _). exists rd, pv. auto.
    + intros Q. destruct (C2 Q) as ((i & I1 & I2 & I3) & _). exists i. auto.
    + lia.
Qed.

(** OpenDRIVE's lane offset shifts the lanes: the border of lane -1 (width w) should be o - w
    to the left of the reference line.  It never is. *)
Theorem C96_lane_offset_refuted n root m n' r s l w o :
  (forall l d, polyline_length (simp l d) <= polyline_length l) ->
  real_read n root = Some (m, n') -> section_of m r s -> in_section l s -> l_pos l = (-1)%Z -> o <> 0 ->
  (forall rd lanes, last_road to_int (findall root "road") r rd -> find1 rd "lanes" = Some lanes ->
     offset_as_in_file 0 to_float lanes (0, (o, 0, 0, 0)) /\
     forall sec e, In sec (findall lanes "laneSection") -> In e (file_lanes sec) -> iattr to_int e "id" = Some (l_pos l) ->
       widths_as_in_file 0 to_float e (l_pos l) [(0, (w, 0, 0, 0))]) ->
  (forall rd pv len, last_road to_int (findall root "road") r rd -> pv_of root rd pv -> fattr to_float rd "length" = Some len ->
     polyline_length (pts (pv_line pv)) <= len) ->
  exists rd pv ds, let inner := simp (bg_unique (pts (pv_line pv))) (1 / 1000) in
    last_road to_int (findall root "road") r rd /\ pv_of root rd pv /\
    ((2 <= length inner)%nat -> l_line l = simp ds (1 / 1000) /\ length ds = length inner /\
      forall i a b q, nth_error inner i = Some a -> nth_error inner (S i) = Some b -> nth_error ds (S i) = Some q -> a <> b -> ~ left_offset a b q (o - w)).
Proof.
  intros SH H I L P1 O HW HL. destruct (C96_constant_width n root m n' r s l w o SH H I L ltac:(rewrite P1; discriminate) HW HL) as (prev & ds & X1 & _ & X3).
  cbv zeta in *. rewrite P1 in *. cbn [Z.abs Z.eqb Pos.eqb Z.ltb Z.compare] in *. destruct (X1 eq_refl) as (rd & pv & Y1 & Y2 & ->). exists rd, pv, ds.
  split; [exact Y1|]. split; [exact Y2|]. intros G. destruct (X3 G) as (Z1 & Z2 & _ & Z4 & _). split; [exact Z1|]. split; [exact Z2|].
  intros i a b q Ha Hb Hq AB E. specialize (Z4 i a b q Ha Hb Hq). unfold left_offset in *. rewrite Z4 in E.
  assert (D : dist a b <> 0) by (intros D; apply AB, dist_zero, D). apply O.
  assert (X : 2 * o * dist a b = 0) by lra. apply Rmult_integral in X as [X|X]; lra.
Qed.
End Real.
Print Assumptions C96_constant_width.
Print Assumptions C96_lane_offset_refuted.

(** A file: one straight road of length 10 with the lane offset 1 and the lanes 1, 0, -1; lanes 1 and -1 have width 3. *)
Definition rw := Elem "width" [("sOffset", "0"); ("a", "3"); ("b", "0"); ("c", "0"); ("d", "0")] [].
Definition rl (id : string) := Elem "lane" [("id", id); ("type", "driving")] (if String.eqb id "0" then [] else [rw]).
Definition real_file : xml :=
  Elem "OpenDRIVE" [] [Elem "header" [] [];
    Elem "road" [("name", "r"); ("length", "10"); ("id", "10"); ("junction", "-1")] [
      Elem "planView" [] [Elem "geometry" [("x", "0"); ("y", "0"); ("hdg", "0"); ("length", "10")] [Elem "line" [] []]];
      Elem "lanes" [] [Elem "laneOffset" [("s", "0"); ("a", "1"); ("b", "0"); ("c", "0"); ("d", "0")] [];
        Elem "laneSection" [("s", "0")] [Elem "left" [] [rl "1"]; Elem "center" [] [rl "0"]; Elem "right" [] [rl "-1"]]]]].
Definition int_table (s : string) : option Z :=
  if String.eqb s "0" then Some 0%Z else if String.eqb s "1" then Some 1%Z else if String.eqb s "-1" then Some (-1)%Z else if String.eqb s "-2" then Some (-2)%Z
  else if String.eqb s "3" then Some 3%Z else if String.eqb s "10" then Some 10%Z else None.
Definition float_table (s : string) : option R := match int_table s with Some z => Some (IZR z) | None => None end.
Definition keep (l : list pt) (d : R) := l.

Lemma keep_append (prev : line) pos en a : (2 <= length (bg_unique (pts prev)))%nat -> polyline_length (bg_unique (pts prev)) <= en ->
  exists b, real_append keep 1 Model_Line.empty_line prev pos (mkXW (0 + 0) en a (0 + 0) (0 + 0) (0 + 0)) = Some b /\ length (pts b) = length (bg_unique (pts prev)) /\
  (forall i v q, nth_error (bg_unique (pts prev)) i = Some v -> nth_error (pts b) i = Some q -> dist v q = Rabs a).
Proof.
  intros L E. rewrite !Rplus_0_r. destruct (C56_constant_width keep 1 prev pos (mkLW 0 en a 0 0 0) (2 / 10) (1 / 1000)) as (l & ds & X1 & X2 & _ & X4 & X5 & _); cbn [lw_a lw_b lw_c lw_d lw_start lw_end]; auto.
  unfold real_append. cbn [xw_start xw_end xw_a xw_b xw_c xw_d]. unfold lane_append. rewrite X1. eexists. split; [reflexivity|]. cbn [pts append_linestring of_points Model_Line.empty_line app]. 
  unfold keep in *. rewrite X2. split; [exact X4|exact X5].
Qed.

Lemma real_line FC FS : exists pv, real_geom FC FS 1 1 empty_plan_view (XLine 0 0 0 10 10) = Some pv /\ pts (pv_line pv) = [(0, 0); (10, 0)].
Proof.
  unfold real_geom. cbn [to_geom pv_add]. destruct (add_line_grid empty_plan_view (0, 0) 0 10 10 ltac:(lra) ltac:(lra)) as (l & G & E). eexists. split; [exact E|].
  cbn [pv_line]. rewrite add_points_pts. cbn [pts pv_line empty_plan_view Model_Line.empty_line app].
  assert (El : l = [0; 10]).
  { destruct G as [[Z _]|(_ & n & Hn & ->)]; [lra|]. assert (n = 0%nat) by (destruct n as [|n]; auto; rewrite !S_INR in Hn; pose proof (pos_INR n); lra).
    subst n. cbn. f_equal. ring. }
  subst l. cbn [map]. unfold line_place. cbn [fst snd]. rewrite cos_0, sin_0. f_equal; [f_equal; ring|f_equal; f_equal; ring].
Qed.
Lemma real_pts : bg_unique [(0, 0); (10, 0)] = [(0, 0); (10, 0)].
Proof. cbn. destruct (pt_eq_dec (0, 0) (10, 0)) as [E|]; [|reflexivity]. injection E. lra. Qed.
Lemma real_len : polyline_length [(0, 0); (10, 0)] = 10.
Proof.
  cbn. unfold dist. cbn [fst snd]. match goal with |- context [sqrt ?x] => replace x with (10 * 10) by (unfold Rsqr; ring) end. rewrite sqrt_square by lra. ring.
Qed.
Lemma real_file_reads FC FS : exists m n' s l pv, real_read float_table int_table FC FS 1 keep 1 SNone 0 real_file = Some (m, n') /\
  section_of m 10%N s /\ in_section l s /\ l_pos l = (-1)%Z /\ real_geom FC FS 1 1 empty_plan_view (XLine 0 0 0 10 10) = Some pv.
Proof.
  destruct (real_line FC FS) as (pv & PV & PT).
  assert (K : forall pos a, exists b, real_append keep 1 Model_Line.empty_line (pv_line pv) pos (mkXW (0 + 0) 10 a (0 + 0) (0 + 0) (0 + 0)) = Some b).
  { intros pos a. destruct (keep_append (pv_line pv) pos 10 a) as (b & B & _); [rewrite PT, real_pts; cbn; lia|rewrite PT, real_pts, real_len; lra|exists b; exact B]. }
  destruct (K 0%Z (0 + 0)) as [b0 B0]. destruct (K 1%Z (3 + 1)) as [b1 B1]. destruct (K (-1)%Z (3 + 1)) as [b2 B2].
  eexists _, _, _, _, pv. split.
  - unfold real_read. cbv -[keep IZR Rplus real_geom real_append line_length pts pv_line empty_plan_view Model_Line.empty_line pv_apply_offset m_insert].
    rewrite PV. cbv -[keep IZR Rplus real_geom real_append line_length pts pv_line empty_plan_view Model_Line.empty_line pv_apply_offset m_insert].
    rewrite B0. cbv -[keep IZR Rplus real_geom real_append line_length pts pv_line empty_plan_view Model_Line.empty_line pv_apply_offset m_insert].
    rewrite B1. cbv -[keep IZR Rplus real_geom real_append line_length pts pv_line empty_plan_view Model_Line.empty_line pv_apply_offset m_insert].
    rewrite B2. cbv -[keep IZR Rplus real_geom real_append line_length pts pv_line empty_plan_view Model_Line.empty_line pv_apply_offset].
    reflexivity.
  - split; [eexists; split; [left; reflexivity|left; reflexivity]|]. split; [right; right; left; apply f_equal2; [|reflexivity]; reflexivity|]. split; [reflexivity|exact PV].
Qed.

Lemma real_only_road rd : last_road int_table (findall real_file "road") 10%N rd -> findall real_file "road" = [rd].
Proof.
  intros (pre & post & E & _). cbn in E |- *. destruct pre as [|x pre]; cbn in E; [injection E as <- _; reflexivity|]. injection E as _ E. destruct pre; discriminate.
Qed.
(** The hypotheses of C96_constant_width and C96_lane_offset_refuted hold for this file (w = 3, o = 1). *)
Example C96_satisfiable FC FS : exists m n' s l, real_read float_table int_table FC FS 1 keep 1 SNone 0 real_file = Some (m, n') /\
  section_of m 10%N s /\ in_section l s /\ l_pos l = (-1)%Z /\
  (forall l d, polyline_length (keep l d) <= polyline_length l) /\
  (forall rd lanes, last_road int_table (findall real_file "road") 10%N rd -> find1 rd "lanes" = Some lanes ->
     offset_as_in_file 0 float_table lanes (0, (1, 0, 0, 0)) /\
     forall sec e, In sec (findall lanes "laneSection") -> In e (file_lanes sec) -> iattr int_table e "id" = Some (l_pos l) ->
       widths_as_in_file 0 float_table e (l_pos l) [(0, (3, 0, 0, 0))]) /\
  (forall rd pv len, last_road int_table (findall real_file "road") 10%N rd ->
     plan_view_as_in_file float_table SNone empty_plan_view (real_geom FC FS 1 1) pv_apply_offset real_file rd pv -> fattr float_table rd "length" = Some len ->
     polyline_length (pts (pv_line pv)) <= len /\ (2 <= length (keep (bg_unique (pts (pv_line pv))) (1 / 1000)))%nat).
Proof.
  destruct (real_file_reads FC FS) as (m & n' & s & l & pv0 & A1 & A2 & A3 & A4 & PV). exists m, n', s, l. split; [exact A1|]. split; [exact A2|]. split; [exact A3|]. split; [exact A4|].
  split; [intros; apply Rle_refl|]. rewrite A4. split.
  - intros rd lanes LR FL. apply real_only_road in LR. assert (E : rd = nth 1 (kids_of real_file) real_file) by (cbn in LR |- *; congruence). subst rd. clear LR.
    cbn in FL. injection FL as <-. split; [cbn; repeat split|].
    intros sec e IS IE ID. cbn in IS. destruct IS as [<-|[]]. cbn in IE. destruct IE as [<-|[<-|[<-|[]]]]; try discriminate ID.
    cbn. constructor; [cbn; repeat split|constructor].
  - intros rd pv len LR PV' Ln. apply real_only_road in LR. assert (E : rd = nth 1 (kids_of real_file) real_file) by (cbn in LR |- *; congruence). subst rd. clear LR.
    cbn in Ln. assert (len = 10) by congruence. subst len. destruct PV' as (h & p & gs & pv1 & H1 & H2 & H3 & H4 & H5).
    cbn in H1, H2. injection H1 as <-. injection H2 as <-. cbn in H5. subst pv. cbn in H3. inversion H3 as [|g x l0 l1 G1 G2]; subst. inversion G2; subst. clear G2 H3.
    inversion G1 as [x0 y0 h0 l2 inc Q1 Q2 Q3 F1 F2 F3 F4 [[_ Q5]|Q5]| |]; subst; try discriminate.
    cbn in F1, F2, F3, F4. assert (x0 = 0) by congruence. assert (y0 = 0) by congruence. assert (h0 = 0) by congruence. assert (l2 = 10) by congruence. subst.
    inversion H4 as [|v v1 v2 g gs X1 X2]; subst. inversion X2; subst. destruct (real_line FC FS) as (pv & P1 & P2). assert (pv1 = pv) by congruence. subst pv1.
    rewrite P2, real_len. split; [lra|]. unfold keep. rewrite real_pts. cbn. lia.
Qed.
