From Coq Require Import Reals Lra Psatz Bool.
From Verif Require Import Base_Real Model_SafeDist Spec_SafeDist.
Local Open Scope R_scope.

(** Everything in terms of braking rates A > 0 and stopping times T >= 0: speed = A*T. *)
Definition B (A T t : R) : R := if Rle_dec t T then A * (T * t - t ^ 2 / 2) else A * T ^ 2 / 2.
Definition RB (d A T t : R) : R := if Rle_dec t d then A * T * t else A * T * d + B A T (t - d).

Lemma stop_time a T : a < 0 -> - ((- a) * T) / a = T.
Proof. intros. field. lra. Qed.
Lemma braking_B a v t : a < 0 -> braking a v t = B (- a) (- v / a) t.
Proof.
  intros Ha. unfold braking, B. destruct (Rle_dec t (- v / a)).
  - field. lra.
  - field. lra.
Qed.
Lemma rb_RB d a v t : a < 0 -> react_and_brake d a v t = RB d (- a) (- v / a) t.
Proof.
  intros Ha. unfold react_and_brake, RB. rewrite braking_B by exact Ha.
  replace (- a * (- v / a)) with v by (field; lra). reflexivity.
Qed.

Lemma B_nonneg A T t : 0 < A -> 0 <= T -> 0 <= t -> 0 <= B A T t.
Proof.
  intros. unfold B. destruct (Rle_dec t T).
  - apply Rmult_le_pos; [lra|]. assert (0 <= t * (T - t)) by (apply Rmult_le_pos; lra). nra.
  - assert (0 <= A * T ^ 2) by (apply Rmult_le_pos; [lra|apply pow2_ge_0]). lra.
Qed.
Lemma B_le_stop A T t : 0 < A -> B A T t <= A * T ^ 2 / 2.
Proof.
  intros. unfold B. destruct (Rle_dec t T); [|lra].
  assert (0 <= A * (T - t) ^ 2) by (apply Rmult_le_pos; [lra|apply pow2_ge_0]). lra.
Qed.
Lemma B_mono A T t u : 0 < A -> 0 <= T -> 0 <= t <= u -> B A T t <= B A T u.
Proof.
  intros HA HT Htu. unfold B. destruct (Rle_dec t T), (Rle_dec u T); try lra.
  - assert (0 <= A * ((u - t) * (2 * T - t - u))) by (apply Rmult_le_pos; [lra|]; apply Rmult_le_pos; lra). nra.
  - assert (0 <= A * (T - t) ^ 2) by (apply Rmult_le_pos; [lra|apply pow2_ge_0]). lra.
Qed.
Lemma RB_le_stop d A T t : 0 < A -> 0 <= T -> 0 <= d -> RB d A T t <= A * T * d + A * T ^ 2 / 2.
Proof.
  intros. unfold RB. destruct (Rle_dec t d).
  - assert (0 <= A * T) by nra. assert (0 <= A * T * (d - t)) by (apply Rmult_le_pos; lra).
    assert (0 <= A * T^2) by (apply Rmult_le_pos; [lra|apply pow2_ge_0]). lra.
  - pose proof (B_le_stop A T (t - d) ltac:(lra)). lra.
Qed.

(** a concave quadratic that is positive at both ends of an interval is positive inside *)
Lemma concave_pos c0 c1 k t1 t2 t : 0 <= k -> t1 <= t <= t2 ->
  0 < c0 + c1 * t1 - k * t1 ^ 2 -> 0 < c0 + c1 * t2 - k * t2 ^ 2 -> 0 < c0 + c1 * t - k * t ^ 2.
Proof.
  intros Hk Ht H1 H2. destruct (Req_dec t1 t2) as [E|E].
  - assert (t = t1) by lra. subst. exact H1.
  - assert (Hd : 0 < t2 - t1) by lra.
    assert (Id : (c0 + c1 * t - k * t ^ 2) * (t2 - t1) =
      (t2 - t) * (c0 + c1 * t1 - k * t1 ^ 2) + (t - t1) * (c0 + c1 * t2 - k * t2 ^ 2)
      + k * (t - t1) * (t2 - t) * (t2 - t1)) by ring.
    assert (P3 : 0 <= k * (t - t1) * (t2 - t) * (t2 - t1)).
    { apply Rmult_le_pos; [|lra]. apply Rmult_le_pos; [|lra]. apply Rmult_le_pos; lra. }
    assert (P : 0 < (c0 + c1 * t - k * t ^ 2) * (t2 - t1)).
    { rewrite Id. destruct (Rle_lt_or_eq_dec t t2 (proj2 Ht)) as [L|EL].
      - assert (0 < (t2 - t) * (c0 + c1 * t1 - k * t1 ^ 2)) by (apply Rmult_lt_0_compat; lra).
        assert (0 <= (t - t1) * (c0 + c1 * t2 - k * t2 ^ 2)) by (apply Rmult_le_pos; lra). lra.
      - subst t. assert (0 < (t2 - t1) * (c0 + c1 * t2 - k * t2 ^ 2)) by (apply Rmult_lt_0_compat; lra). lra. }
    apply Rmult_lt_reg_r with (t2 - t1); [exact Hd|]. rewrite Rmult_0_l. exact P.
Qed.

Section Gap.
  (* front: rate F, stopping time P; rear: rate A, stopping time T; reaction time d; initial gap g0 *)
  Variables F P A T d g0 : R.
  Hypotheses (HF : 0 < F) (HA : 0 < A) (HP : 0 <= P) (HT : 0 <= T) (Hd : 0 <= d) (Hg : 0 < g0).
  Definition gap (t : R) : R := g0 + B F P t - RB d A T t.

  (* rear stops short of the front's initial position *)
  Lemma safe0 t : A * T * d + A * T ^ 2 / 2 < g0 -> 0 <= t -> 0 < gap t.
  Proof.
    intros H Ht. unfold gap. pose proof (B_nonneg F P t HF HP Ht). pose proof (RB_le_stop d A T t HA HT Hd). lra.
  Qed.

  (* before the rear reacts and before the front stops *)
  Lemma gap_early t : t <= d -> t <= P -> gap t = g0 + (F * P - A * T) * t - F / 2 * t ^ 2.
  Proof. intros. unfold gap, B, RB. destruct (Rle_dec t P); [|lra]. destruct (Rle_dec t d); [|lra]. field. Qed.

  (* rear stops short of where the front is when the rear reacts *)
  Lemma safe3 t : d <= P -> A * T * d + A * T ^ 2 / 2 < g0 + F * (P * d - d ^ 2 / 2) -> 0 <= t -> 0 < gap t.
  Proof.
    intros HdP H Ht.
    assert (Bd : B F P d = F * (P * d - d ^ 2 / 2)) by (unfold B; destruct (Rle_dec d P); [reflexivity|lra]).
    destruct (Rle_dec d t) as [L|L].
    - pose proof (B_mono F P d t HF HP ltac:(lra)). pose proof (RB_le_stop d A T t HA HT Hd).
      unfold gap. lra.
    - rewrite gap_early by lra.
      apply concave_pos with (t1 := 0) (t2 := d); [lra|lra|ring_simplify; lra|].
      assert (0 <= A * T ^ 2) by (apply Rmult_le_pos; [lra|apply pow2_ge_0]). lra.
  Qed.

  Hypothesis Hfin : A * T * d + A * T ^ 2 / 2 < g0 + F * P ^ 2 / 2.

  Lemma late t : P <= t -> 0 < gap t.
  Proof.
    intros H. pose proof (RB_le_stop d A T t HA HT Hd).
    assert (E : B F P t = F * P ^ 2 / 2).
    { unfold B. destruct (Rle_dec t P); [|reflexivity]. assert (t = P) by lra. subst. field. }
    unfold gap. rewrite E. lra.
  Qed.

  (* front stopped before the rear reacts *)
  Lemma front_stops_first t : P <= d -> 0 <= t -> 0 < gap t.
  Proof.
    intros HPd Ht. destruct (Rle_dec P t); [now apply late|].
    rewrite gap_early by lra. pose proof (late P ltac:(lra)) as L. rewrite gap_early in L by lra.
    apply concave_pos with (t1 := 0) (t2 := P); [lra|lra|ring_simplify; lra|exact L].
  Qed.

  Lemma gap_mid s : d <= P -> 0 <= s -> s <= T -> d + s <= P ->
    gap (d + s) = g0 + F * (P * d - d ^ 2 / 2) - A * T * d + (F * (P - d) - A * T) * s - (F - A) / 2 * s ^ 2.
  Proof.
    intros. unfold gap, RB, B. destruct (Rle_dec (d + s) P); [|lra]. destruct (Rle_dec (d + s) d).
    - assert (s = 0) by lra. subst s. field.
    - replace (d + s - d) with s by ring. destruct (Rle_dec s T); [|lra]. field.
  Qed.

  Lemma gap_from_d t : d <= P -> 0 < gap d -> 0 <= t <= d -> 0 < gap t.
  Proof.
    intros HdP Hgd Ht. rewrite gap_early in Hgd |- * by lra.
    apply concave_pos with (t1 := 0) (t2 := d); [lra|lra|ring_simplify; lra|exact Hgd].
  Qed.

  (* neither vehicle is ever closest in motion: rear not faster and stopping first *)
  Lemma rear_slower t : d <= P -> A * T <= F * (P - d) -> T <= P - d -> 0 <= t -> 0 < gap t.
  Proof.
    intros HdP Hv Hs Ht.
    assert (Hdpos : 0 < gap d).
    { rewrite gap_early by lra. assert (0 <= (F * (P - d) - A * T) * d) by (apply Rmult_le_pos; lra). nra. }
    destruct (Rle_dec t d); [apply gap_from_d; auto|].
    assert (M : forall s, 0 <= s <= T -> 0 < gap (d + s)).
    { intros s Hsr. rewrite gap_mid by lra. assert (E : gap d = gap (d + 0)) by (f_equal; ring).
      rewrite E, gap_mid in Hdpos by lra. ring_simplify in Hdpos.
      assert (Q : 0 <= (F * (P - d) - A * T) * s - (F - A) / 2 * s ^ 2).
      { (* relative speed non-negative at s = 0 and at s = T *)
        assert (R1 : 0 <= F * (P - d - T)) by (apply Rmult_le_pos; lra).
        assert (R2 : 0 <= (F * (P - d) - A * T) * s) by (apply Rmult_le_pos; lra).
        assert (R3 : 0 <= F * (P - d - T) * s) by (apply Rmult_le_pos; lra).
        destruct (Rle_dec F A).
        - assert (0 <= (A - F) * s ^ 2) by (apply Rmult_le_pos; [lra|apply pow2_ge_0]). lra.
        - assert (0 <= (F - A) * (s * (T - s))).
          { apply Rmult_le_pos; [lra|]. apply Rmult_le_pos; lra. } nra. }
      ring_simplify. ring_simplify in Q. lra. }
    destruct (Rle_dec t (d + T)).
    - replace t with (d + (t - d)) by ring. apply M. lra.
    - specialize (M T ltac:(lra)). unfold gap in *.
      assert (RB d A T t = RB d A T (d + T)).
      { unfold RB. destruct (Rle_dec t d); [lra|]. destruct (Rle_dec (d + T) d).
        - assert (T = 0) by lra. rewrite H. unfold B. destruct (Rle_dec (t - d) 0); [lra|]. field.
        - f_equal. unfold B. replace (d + T - d) with T by ring. destruct (Rle_dec T T); [|lra].
          destruct (Rle_dec (t - d) T); [lra|]. field. }
      rewrite H. pose proof (B_mono F P (d + T) t HF HP ltac:(lra)). lra.
  Qed.

  (* the front vehicle stops first *)
  Lemma front_first t : d <= P -> P - d <= T -> 0 <= t -> 0 < gap t.
  Proof.
    intros HdP Hs Ht.
    destruct (Rle_dec P t); [now apply late|].
    pose proof (late P ltac:(lra)) as L.
    assert (E : P = d + (P - d)) by ring. rewrite E in L at 1. rewrite gap_mid in L by lra.
    destruct (Rle_dec (F * (P - d)) (A * T)) as [Hv|Hv].
    - (* gap shrinks on [d, P] *)
      assert (M : forall s, 0 <= s <= P - d -> 0 < gap (d + s)).
      { intros s Hsr. rewrite gap_mid by lra.
        set (p := P - d) in *.
        assert (Q : 0 <= ((F * p - A * T) * s - (F - A) / 2 * s ^ 2) - ((F * p - A * T) * p - (F - A) / 2 * p ^ 2)).
        { (* = (p - s) * [ (A T - F p) + (F - A)(p+s)/2 ] ; relative speed <= 0 at both ends *)
          replace (((F * p - A * T) * s - (F - A) / 2 * s ^ 2) - ((F * p - A * T) * p - (F - A) / 2 * p ^ 2))
            with ((p - s) * ((A * T - F * p) + (F - A) * (p + s) / 2)) by field.
          apply Rmult_le_pos; [lra|].
          destruct (Rle_dec A F).
          - assert (0 <= (F - A) * (p + s)) by (apply Rmult_le_pos; lra). lra.
          - assert (0 <= A * (T - p)) by (apply Rmult_le_pos; lra).
            assert ((A - F) * (p + s) <= (A - F) * (2 * p)) by (apply Rmult_le_compat_l; lra). nra. }
        lra. }
      destruct (Rle_dec t d).
      + apply gap_from_d; auto. specialize (M 0 ltac:(lra)). rewrite Rplus_0_r in M. exact M.
      + replace t with (d + (t - d)) by ring. apply M. lra.
    - (* gap grows on [0, d], concave on [d, P] *)
      assert (Hdpos : 0 < gap d).
      { rewrite gap_early by lra. assert (0 <= (F * (P - d) - A * T) * d) by (apply Rmult_le_pos; lra). nra. }
      destruct (Rle_dec t d); [apply gap_from_d; auto|].
      assert (HAF : A <= F).
      { destruct (Rle_dec A F); [assumption|]. exfalso. apply Hv.
        apply Rle_trans with (A * (P - d)); [apply Rmult_le_compat_r; lra|apply Rmult_le_compat_l; lra]. }
      replace t with (d + (t - d)) by ring. rewrite gap_mid by lra.
      replace (gap d) with (gap (d + 0)) in Hdpos by (f_equal; ring). rewrite gap_mid in Hdpos by lra.
      apply concave_pos with (t1 := 0) (t2 := P - d); lra.
  Qed.
End Gap.
