(** A straight road of length 100 used in examples: evaluation of the line functions on it. *)
From Coq Require Import Reals List Bool Arith Lra Lia.
From Verif Require Import Base_Real Base_Geom Model_Line.
Import ListNotations.
Local Open Scope R_scope.

Definition road : line := of_points [(0, 0); (100, 0)].
Lemma dist_x a b : a <= b -> dist (b, 0) (a, 0) = b - a.
Proof.
  intros H. unfold dist. cbn [fst snd]. match goal with |- sqrt ?e = _ => replace e with ((b - a) * (b - a)) by ring end.
  apply sqrt_square. lra.
Qed.
Lemma road_ss : ss road = [0; 100].
Proof.
  unfold road, of_points, recompute, rs_loop. cbn [ss]. rewrite !dist_x by lra.
  replace (0 + (0 - 0)) with 0 by ring. replace (0 + (100 - 0)) with 100 by ring. reflexivity.
Qed.
Lemma road_pts : pts road = [(0, 0); (100, 0)].
Proof. reflexivity. Qed.
Lemma road_ub s : 0 < s < 100 -> segment_end_idx road s = 1%nat.
Proof.
  intros [A B]. unfold segment_end_idx. rewrite road_ss. cbn.
  destruct (Rltb_spec s 0); [lra|]. destruct (Rltb_spec s 100); [|lra]. reflexivity.
Qed.
Lemma road_point s : 0 < s < 100 -> get_point_at_s road s = Some (s, 0).
Proof.
  intros H. unfold get_point_at_s. rewrite road_pts, road_ub by auto. rewrite road_ss. cbn.
  destruct (Rleb_spec s 0); [lra|]. destruct (Rleb_spec 100 s); [lra|].
  destruct (Reqb_spec (100 - 0) 0); [lra|]. f_equal. f_equal; field.
Qed.
Lemma road_tangent s : 0 < s < 100 -> get_tangent_angle_at_s road s = Some 0.
Proof.
  intros H. unfold get_tangent_angle_at_s, at_vertex. rewrite road_pts, road_ub by auto. rewrite road_ss. cbn.
  destruct (Rleb_spec s 0); [lra|]. destruct (Rleb_spec 100 s); [lra|].
  destruct (Rltb_spec 0 s); [|lra]. destruct (Rltb_spec 100 s); [lra|]. cbn. unfold nth_seg. cbn.
  f_equal. unfold seg_angle, atan2. cbn.
  replace ((0 - 0) / (100 - 0)) with 0 by field. rewrite atan_0.
  destruct (Rlt_dec 0 (100 - 0)); [reflexivity|lra].
Qed.
Lemma road_nearest x y : 0 <= x <= 100 -> get_nearest_s road (x, y) = Some x.
Proof.
  intros H. unfold get_nearest_s, get_nearest_point_and_s. rewrite road_pts, road_ss. cbn.
  unfold nearest_on_segment. cbn.
  destruct (Reqb_spec (0 * 0 - 2 * 0 * 100 + 0 * 0 - 2 * 0 * 0 + 100 * 100 + 0 * 0) 0); [lra|].
  match goal with |- context [Rltb ?l 0] => replace l with (x / 100) by field end.
  destruct (Rltb_spec (x / 100) 0); [lra|]. destruct (Rltb_spec 1 (x / 100)); [lra|]. cbn. f_equal. field.
Qed.
