(** C46, C54, C55, C56: road geometry. *)
From Coq Require Import Reals ZArith List Bool Lra Lia Psatz.
From Verif Require Import Base_Real Base_Geom Model_Angle Model_Line Model_PlanView Spec_Line Spec_PlanView Proof_Angle Proof_Line Props_Line Props_Line2 Proof_Frenet Proof_PlanView.
Import ListNotations.
Local Open Scope R_scope.

(** * C54: the sampled points lie on the curve described by the geometry *)
Lemma deriv_lin c a s : derivable_pt_lim (fun x => c + a * x) s a.
Proof.
  enough (DD : derivable_pt_lim (fun x => c + a * x) s (0 + a * 1)) by (rewrite Rplus_0_l, Rmult_1_r in DD; exact DD).
  apply (derivable_pt_lim_plus (fun _ => c) (fun x => a * x)); [apply derivable_pt_lim_const|].
  apply (derivable_pt_lim_scal (fun x => x)). apply derivable_pt_lim_id.
Qed.
Lemma deriv_ext (f g : R -> R) s d e : (forall x, f x = g x) -> d = e -> derivable_pt_lim f s d -> derivable_pt_lim g s e.
Proof. intros H -> D eps He. destruct (D eps He) as [del X]. exists del. intros x. rewrite <- !H. apply X. Qed.
Lemma line_curve p h : unit_curve (line_place p h) p (line_heading h).
Proof.
  split. { unfold line_place. destruct p; cbn. f_equal; ring. }
  intros s. unfold line_heading, line_place. cbn [fst snd].
  split; (eapply deriv_ext; [..|apply deriv_lin]); try reflexivity; intros; cbv beta; f_equal; apply Rmult_comm.
Qed.

(** Two unit-speed curves with the same start and headings are the same curve. *)
Lemma deriv_zero_const f : (forall s, derivable_pt_lim f s 0) -> forall a b, f a = f b.
Proof.
  intros D. assert (W : forall a b, a < b -> f a = f b).
  { intros a b L. destruct (MVT_cor2 f (fun _ => 0) a b L ltac:(intros; apply D)) as (c & E & _). lra. }
  intros a b. destruct (Rtotal_order a b) as [L|[->|L]]; auto. symmetry; auto.
Qed.
Lemma unit_curve_unique g1 g2 p hd s : unit_curve g1 p hd -> unit_curve g2 p hd -> g1 s = g2 s.
Proof.
  intros [A1 D1] [A2 D2].
  assert (X : fst (g1 s) - fst (g2 s) = fst (g1 0) - fst (g2 0)).
  { apply (deriv_zero_const (fun x => fst (g1 x) - fst (g2 x))). intros x.
    replace 0 with (cos (hd x) - cos (hd x)) by ring. apply (derivable_pt_lim_minus (fun x => fst (g1 x)) (fun x => fst (g2 x))); [apply D1|apply D2]. }
  assert (Y : snd (g1 s) - snd (g2 s) = snd (g1 0) - snd (g2 0)).
  { apply (deriv_zero_const (fun x => snd (g1 x) - snd (g2 x))). intros x.
    replace 0 with (sin (hd x) - sin (hd x)) by ring. apply (derivable_pt_lim_minus (fun x => snd (g1 x)) (fun x => snd (g2 x))); [apply D1|apply D2]. }
  rewrite A1, A2 in X, Y. destruct (g1 s), (g2 s). cbn in *. f_equal; lra.
Qed.

Definition arc_place (p : pt) (h k s : R) : pt := (fst p + (sin (h + k * s) - sin h) / k, snd p + (cos h - cos (h + k * s)) / k).
Lemma arc_position_eq s h k : k <> 0 -> calc_arc_position s h k = Some ((sin (h + k * s) - sin h) / k, (cos h - cos (h + k * s)) / k).
Proof.
  intros Hk. unfold calc_arc_position. destruct (Reqb_spec k 0); [tauto|].
  destruct (fmod_congr h (2 * PI)) as [z Hz]. set (m := fmod h (2 * PI)) in *.
  assert (C : forall x, cos (h + x) = cos (m + x)).
  { intros x. rewrite Hz. replace (m + IZR z * (2 * PI) + x) with ((m + x) + IZR z * (2 * PI)) by ring. apply cos_Zperiod. }
  assert (N : forall x, sin (h + x) = sin (m + x)).
  { intros x. rewrite Hz. replace (m + IZR z * (2 * PI) + x) with ((m + x) + IZR z * (2 * PI)) by ring. apply sin_Zperiod. }
  cbv zeta. set (a := s * k / 2).
  replace ((PI - s * k) / 2 - (m - PI / 2)) with (PI - (m + a)) by (unfold a; field).
  rewrite Rtrigo_facts.cos_pi_minus, Rtrigo_facts.sin_pi_minus.
  rewrite N, C. pose proof (N 0) as N0. pose proof (C 0) as C0. rewrite !Rplus_0_r in N0, C0. rewrite N0, C0.
  replace (m + k * s) with ((m + a) + a) by (unfold a; field).
  assert (S1 : sin m = sin (m + a) * cos a - cos (m + a) * sin a). { rewrite <- sin_minus. f_equal. ring. }
  assert (C1 : cos m = cos (m + a) * cos a + sin (m + a) * sin a). { rewrite <- cos_minus. f_equal. ring. }
  rewrite S1, C1, (sin_plus (m + a) a), (cos_plus (m + a) a). f_equal. f_equal; field; auto.
Qed.
Lemma arc_curve p h k : k <> 0 -> unit_curve (arc_place p h k) p (arc_heading h k).
Proof.
  intros Hk. split. { unfold arc_place. rewrite Rmult_0_r, Rplus_0_r. destruct p; cbn. f_equal; field; auto. }
  intros s. unfold arc_heading, arc_place. cbn [fst snd].
  pose proof (derivable_pt_lim_comp (fun x => h + k * x) sin s k _ (deriv_lin h k s) (derivable_pt_lim_sin (h + k * s))) as D1.
  pose proof (derivable_pt_lim_comp (fun x => h + k * x) cos s k _ (deriv_lin h k s) (derivable_pt_lim_cos (h + k * s))) as D2.
  split.
  - eapply deriv_ext; [..|apply (derivable_pt_lim_plus (fun _ => fst p - sin h / k) (mult_real_fct (/ k) (comp sin (fun x => h + k * x)))); [apply derivable_pt_lim_const|apply derivable_pt_lim_scal; exact D1]].
    + intros x. unfold plus_fct, mult_real_fct, comp. field. auto.
    + field. auto.
  - eapply deriv_ext; [..|apply (derivable_pt_lim_plus (fun _ => snd p + cos h / k) (mult_real_fct (- / k) (comp cos (fun x => h + k * x)))); [apply derivable_pt_lim_const|apply derivable_pt_lim_scal; exact D2]].
    + intros x. unfold plus_fct, mult_real_fct, comp. field. auto.
    + field. auto.
Qed.

(** The Fresnel formula: both signs of the curvature derivative. *)
Lemma spiral_curve FC FS x0 y0 cdot k0 th : fresnel_integrals FC FS -> cdot <> 0 ->
  unit_curve (fun s => odr_spiral FC FS s x0 y0 cdot k0 th) (x0, y0) (fun s => th + k0 * s + cdot * s * s / 2).
Proof.
  intros HF Hc. split.
  { unfold odr_spiral. destruct (Reqb_spec cdot 0); [tauto|]. cbn [andb]. cbv zeta. rewrite Rmult_0_r, Rplus_0_r.
    destruct (Rltb cdot 0); unfold cadd, cmul; cbn [fst snd]; f_equal; ring. }
  intros s.
  set (w := sqrt (PI * Rabs cdot)). assert (PP := PI_RGT_0). assert (AP : 0 < Rabs cdot) by (apply Rabs_pos_lt; auto).
  assert (Wp : 0 < w) by (apply sqrt_lt_R0, Rmult_lt_0_compat; auto).
  assert (W2 : w * w = PI * Rabs cdot) by (apply sqrt_sqrt; apply Rmult_le_pos; lra).
  set (m := sqrt (PI / Rabs cdot)).
  assert (MW : m * (Rabs cdot / w) = 1).
  { unfold m, w. rewrite sqrt_div_alt, sqrt_mult by lra.
    assert (Q : sqrt (Rabs cdot) * sqrt (Rabs cdot) = Rabs cdot) by (apply sqrt_sqrt; lra).
    assert (0 < sqrt PI) by (apply sqrt_lt_R0; lra). assert (0 < sqrt (Rabs cdot)) by (apply sqrt_lt_R0; lra).
    rewrite <- Q at 2. field. split; lra. }
  set (ph := th - k0 * k0 / 2 / cdot).
  set (u := fun x => (k0 + cdot * x) / w).
  assert (DU : derivable_pt_lim u s (cdot / w)).
  { eapply deriv_ext; [..|apply (deriv_lin (k0 / w) (cdot / w) s)]; [intros; unfold u; field; lra|reflexivity]. }
  destruct (HF (u s)) as [D1 D2].
  pose proof (derivable_pt_lim_comp u FC s _ _ DU D1) as E1. pose proof (derivable_pt_lim_comp u FS s _ _ DU D2) as E2.
  set (U := PI / 2 * u s * u s) in *.
  set (sg := if Rltb cdot 0 then -1 else 1).
  assert (SG : sg * Rabs cdot = cdot /\ sg * sg = 1).
  { unfold sg. destruct (Rltb_spec cdot 0); split; try ring; [rewrite Rabs_left by lra|rewrite Rabs_right by lra]; ring. }
  assert (HD : th + k0 * s + cdot * s * s / 2 = ph + sg * U).
  { unfold ph, U, u. replace (sg * (PI / 2 * ((k0 + cdot * s) / w) * ((k0 + cdot * s) / w))) with
      (sg * PI / 2 * ((k0 + cdot * s) * (k0 + cdot * s)) / (w * w)) by (field; lra).
    rewrite W2. replace (sg * PI / 2 * ((k0 + cdot * s) * (k0 + cdot * s)) / (PI * Rabs cdot)) with
      ((k0 + cdot * s) * (k0 + cdot * s) / 2 * (sg / Rabs cdot)) by (field; lra).
    replace (sg / Rabs cdot) with (/ cdot). { field. auto. }
    destruct SG as [G1 G2]. rewrite <- G1 at 1. apply Rmult_eq_reg_l with (sg * Rabs cdot); [|rewrite G1; auto].
    rewrite Rinv_r by (rewrite G1; auto). transitivity (sg * sg); [auto|]. field. lra. }
  rewrite HD.
  assert (EX : forall x, odr_spiral FC FS x x0 y0 cdot k0 th =
     (x0 + m * (cos ph * (sg * (FC (u x) - FC (u 0))) - sin ph * (FS (u x) - FS (u 0))),
      y0 + m * (cos ph * (FS (u x) - FS (u 0)) + sin ph * (sg * (FC (u x) - FC (u 0)))))).
  { intros x. unfold odr_spiral. destruct (Reqb_spec cdot 0); [tauto|]. cbn [andb]. cbv zeta.
    fold w m ph. fold (u x). replace (k0 / w) with (u 0) by (unfold u; f_equal; ring).
    unfold sg. destruct (Rltb cdot 0); unfold cadd, cmul, creal, cexp_i; cbn [fst snd]; f_equal; ring. }
  assert (CS : cos (sg * U) = cos U /\ sin (sg * U) = sg * sin U).
  { unfold sg. destruct (Rltb cdot 0); [|rewrite !Rmult_1_l; auto]. replace (-1 * U) with (- U) by ring. rewrite cos_neg, sin_neg. split; ring. }
  destruct CS as [CU SU]. destruct SG as [G1 G2].
  assert (K1 : m * (cdot / w) = sg). { rewrite <- G1. transitivity (sg * (m * (Rabs cdot / w))); [field; lra|]. rewrite MW. ring. }
  rewrite cos_plus, sin_plus, CU, SU.
  split.
  - eapply deriv_ext; [..|apply (derivable_pt_lim_plus (fun _ => x0 - m * (cos ph * sg * FC (u 0) - sin ph * FS (u 0)))
        (plus_fct (mult_real_fct (m * cos ph * sg) (comp FC u)) (mult_real_fct (- m * sin ph) (comp FS u))));
        [apply derivable_pt_lim_const|apply derivable_pt_lim_plus; apply derivable_pt_lim_scal; [exact E1|exact E2]]].
    + intros x. rewrite EX. unfold plus_fct, mult_real_fct, comp. cbn [fst]. ring.
    + transitivity (m * (cdot / w) * (cos ph * sg * cos U - sin ph * sin U)); [ring|]. rewrite K1.
      transitivity (cos ph * (sg * sg) * cos U - sg * sin ph * sin U); [ring|]. rewrite G2. ring.
  - eapply deriv_ext; [..|apply (derivable_pt_lim_plus (fun _ => y0 - m * (cos ph * FS (u 0) + sin ph * sg * FC (u 0)))
        (plus_fct (mult_real_fct (m * cos ph) (comp FS u)) (mult_real_fct (m * sin ph * sg) (comp FC u))));
        [apply derivable_pt_lim_const|apply derivable_pt_lim_plus; apply derivable_pt_lim_scal; [exact E2|exact E1]]].
    + intros x. rewrite EX. unfold plus_fct, mult_real_fct, comp. cbn [snd]. ring.
    + transitivity (m * (cdot / w) * (cos ph * sin U + sin ph * sg * cos U)); [ring|]. rewrite K1.
      transitivity (sin ph * (sg * sg) * cos U + cos ph * (sg * sin U)); [ring|]. rewrite G2. ring.
Qed.

(** The curve a call is supposed to sample. *)
Definition g_curve (FC FS : R -> R) (g : geom) : R -> pt :=
  match g with
  | GLine p h _ _ => line_place p h
  | GArc p h _ k _ => arc_place p h k
  | GSpiral p h len k0 k1 _ => fun s => odr_spiral FC FS s (fst p) (snd p) ((k1 - k0) / len) k0 h
  end.
Lemma g_curve_ok FC FS g : fresnel_integrals FC FS -> g_ok g -> unit_curve (g_curve FC FS g) (g_start g) (g_heading g).
Proof.
  intros HF (_ & _ & H). destruct g as [p h len inc|p h len k inc|p h len k0 k1 inc]; cbn in *.
  - apply line_curve.
  - apply arc_curve, H.
  - destruct H as [H1 H2]. destruct p as [x y]. cbn [fst snd]. apply (spiral_curve FC FS x y ((k1 - k0) / len) k0 h); auto.
    intros E. apply H2. assert (X : (k1 - k0) / len * len = k1 - k0) by (field; lra). rewrite E in X. lra.
Qed.
Lemma add_line_grid v p h len inc : 0 < inc -> 0 <= len -> exists l, sample_grid len inc l /\
  pv_add_line v p h len inc = Some (let m := fold_left (fun m s => add_point m (line_place p h s)) l (pv_line v) in mkPV m (line_length m)).
Proof.
  intros Hi Hl. unfold pv_add_line. destruct (Reqb_spec inc 0); [lra|]. cbv zeta.
  assert (Q : 0 <= len / inc) by (apply Rmult_le_pos; [lra|left; apply Rinv_0_lt_compat; auto]).
  destruct (trunc_pos _ Q) as [T1 T2]. set (num := Ztrunc0 (len / inc)) in *.
  assert (Zn : (0 <= num)%Z). { assert (0 < num + 1)%Z by (apply lt_IZR; rewrite plus_IZR; lra). lia. }
  destruct (Z.ltb_spec num 0); [lia|].
  set (n := Z.to_nat num). assert (En : INR n = IZR num). { unfold n. rewrite INR_IZR_INZ, Z2Nat.id; auto. }
  rewrite <- En in *.
  assert (B1 : INR n * inc <= len). { apply Rmult_le_compat_r with (r := inc) in T1; [|lra]. unfold Rdiv in T1. rewrite Rmult_assoc, Rinv_l in T1 by lra. lra. }
  assert (B2 : len < INR n * inc + inc). { apply Rmult_lt_compat_r with (r := inc) in T2; [|lra]. unfold Rdiv in T2. rewrite Rmult_assoc, Rinv_l in T2 by lra. lra. }
  assert (M : forall ns m, fold_left (fun l i => add_point l (line_place p h (INR i * inc))) ns m =
     fold_left (fun m s => add_point m (line_place p h s)) (map (fun i => INR i * inc) ns) m).
  { induction ns; intros; cbn; auto. }
  rewrite M.
  destruct (Rltb_spec (INR n * inc) len) as [L|L].
  - exists (map (fun i => INR i * inc) (seq 0 (S n)) ++ [len]). split.
    + right. split; [pose proof (pos_INR n); nra|]. exists n. rewrite S_INR. split; auto. lra.
    + rewrite fold_left_app. reflexivity.
  - assert (E : len = INR n * inc) by lra. exists (map (fun i => INR i * inc) (seq 0 (S n))). split; [|reflexivity].
    destruct n as [|n'].
    + left. cbn in E |- *. rewrite Rmult_0_l in *. auto.
    + right. rewrite S_INR in E. pose proof (pos_INR n'). split; [nra|]. exists n'. rewrite S_INR. split; [nra|].
      rewrite seq_S, map_app. cbn [map plus]. rewrite E, S_INR. reflexivity.
Qed.
Lemma add_grid FC FS g : g_ok g -> exists F, forall v, exists l, sample_grid (g_len g) (g_inc g) l /\
  forall f, (F <= f)%nat -> exists m, m = fold_left (fun m s => add_point m (g_curve FC FS g s)) l (pv_line v) /\
    (is_arc g -> pv_add FC FS f v g = Some (mkPV m (pv_length v))) /\
    (~ is_arc g -> pv_add FC FS f v g = Some (mkPV m (line_length m))).
Proof.
  intros (Hi & Hl & H). destruct g as [p h len inc|p h len k inc|p h len k0 k1 inc]; cbn in *.
  - exists 0%nat. intros v. destruct (add_line_grid v p h len inc Hi Hl) as (l & G & E). exists l. split; auto. intros f _.
    eexists. split; [reflexivity|]. split; [tauto|]. intros _. exact E.
  - destruct (s_loop_spec0 len inc Hi Hl) as (F & l & G & E). exists F. intros v. exists l. split; auto. intros f Hf.
    eexists. split; [reflexivity|]. split; [|tauto]. intros _. unfold pv_add_arc. rewrite (E f Hf).
    rewrite (add_samples_some (arc_place p h k)); [reflexivity|]. intros s _. rewrite arc_position_eq by auto. reflexivity.
  - destruct (s_loop_spec0 len inc Hi Hl) as (F & l & G & E). exists F. intros v. exists l. split; auto. intros f Hf.
    eexists. split; [reflexivity|]. split; [tauto|]. intros _. unfold pv_add_spiral. destruct (Reqb_spec len 0); [lra|]. cbv zeta. rewrite (E f Hf).
    rewrite (add_samples_some (fun s => odr_spiral FC FS s (fst p) (snd p) ((k1 - k0) / len) k0 h)) by auto. reflexivity.
Qed.

(** Every AddLine, AddArc or AddSpiral call ends, and appends the points of the described curve at the
    distances 0, inc, 2 inc, ... and exactly at its end. *)
Theorem C54_points_on_curve : forall FC FS g, fresnel_integrals FC FS -> g_ok g ->
  exists c, unit_curve c (g_start g) (g_heading g) /\
  exists F, forall f v, (F <= f)%nat -> exists l v', sample_grid (g_len g) (g_inc g) l /\
    pv_add FC FS f v g = Some v' /\
    pts (pv_line v') = pts (pv_line v) ++ map c l /\
    arc_lengths_of (pts (pv_line v')) (ss (pv_line v')).
Proof.
  intros FC FS g HF HG. exists (g_curve FC FS g). split; [apply g_curve_ok; auto|].
  destruct (add_grid FC FS g HG) as [F H]. exists F. intros f v Hf. destruct (H v) as (l & G & E). destruct (E f Hf) as (m & Em & A & B).
  assert (NE : l <> []) by (destruct (grid_nonempty _ _ _ G) as [r ->]; discriminate).
  assert (Pm : pts m = pts (pv_line v) ++ map (g_curve FC FS g) l) by (rewrite Em; apply add_points_pts).
  assert (Cm : consistent m) by (rewrite Em; apply add_points_cons; auto).
  assert (D : is_arc g \/ ~ is_arc g) by (destruct g; cbn; auto).
  destruct D as [D|D]; [specialize (A D)|specialize (B D)]; eexists l, _; (split; [exact G|]); (split; [eassumption|]); cbn; auto.
Qed.
Print Assumptions C54_points_on_curve.

(** The curve is determined by its start and headings, so the theorem leaves no freedom in the points. *)
Theorem C54_curve_unique : forall c1 c2 p hd s, unit_curve c1 p hd -> unit_curve c2 p hd -> c1 s = c2 s.
Proof. intros. eapply unit_curve_unique; eauto. Qed.
Print Assumptions C54_curve_unique.

Lemma no_fixed_direction h : cos h = 0 -> sin h = h -> False.
Proof.
  intros C N. pose proof (SIN_bound h) as B. pose proof PI_RGT_0. pose proof PI2_3_2.
  assert (0 < cos h) by (apply cos_gt_0; lra). lra.
Qed.
(** A spiral whose curvature does not change is never sampled on the curve it describes, whatever its heading
    and its curvature (also when it is a straight line). *)
Theorem C54_spiral_constant_curvature_refuted : forall FC FS x0 y0 k0 h,
  ~ unit_curve (fun s => odr_spiral FC FS s x0 y0 0 k0 h) (x0, y0) (fun s => h + k0 * s).
Proof.
  intros FC FS x0 y0 k0 h [_ D]. destruct (D 0) as [D1 D2]. rewrite Rmult_0_r, Rplus_0_r in D1, D2.
  unfold odr_spiral in D1, D2. destruct (Reqb_spec 0 0) as [_|]; [|tauto]. cbn [andb] in D1, D2.
  apply (no_fixed_direction h).
  - destruct (Reqb_spec k0 0) as [E|E]; unfold cadd, cmul, creal, ci in D1; cbn [fst snd] in D1.
    + eapply uniqueness_limite; [exact D1|]. eapply deriv_ext; [..|apply (derivable_pt_lim_const x0 0)]; [intros; unfold fct_cte; ring|reflexivity].
    + eapply uniqueness_limite; [exact D1|].
      pose proof (derivable_pt_lim_comp (fun x => 0 + k0 * x) cos 0 k0 _ (deriv_lin 0 k0 0) (derivable_pt_lim_cos (0 + k0 * 0))) as D3.
      eapply deriv_ext; [..|apply (derivable_pt_lim_plus (fun _ => x0 - h / k0) (mult_real_fct (h / k0) (comp cos (fun x => 0 + k0 * x)))); [apply derivable_pt_lim_const|apply derivable_pt_lim_scal; exact D3]].
      * intros x. unfold plus_fct, mult_real_fct, comp. rewrite Rplus_0_l. field. auto.
      * rewrite Rmult_0_r, Rplus_0_r, sin_0. ring.
  - destruct (Reqb_spec k0 0) as [E|E]; unfold cadd, cmul, creal, ci in D2; cbn [fst snd] in D2.
    + eapply uniqueness_limite; [exact D2|]. eapply deriv_ext; [..|apply (deriv_lin y0 h 0)]; [intros; cbv beta; ring|reflexivity].
    + eapply uniqueness_limite; [exact D2|].
      pose proof (derivable_pt_lim_comp (fun x => 0 + k0 * x) sin 0 k0 _ (deriv_lin 0 k0 0) (derivable_pt_lim_sin (0 + k0 * 0))) as D3.
      eapply deriv_ext; [..|apply (derivable_pt_lim_plus (fun _ => y0) (mult_real_fct (h / k0) (comp sin (fun x => 0 + k0 * x)))); [apply derivable_pt_lim_const|apply derivable_pt_lim_scal; exact D3]].
      * intros x. unfold plus_fct, mult_real_fct, comp. rewrite Rplus_0_l. field. auto.
      * rewrite Rmult_0_r, Rplus_0_r, cos_0. field. auto.
Qed.
Print Assumptions C54_spiral_constant_curvature_refuted.

(** An arc of zero curvature divides by zero, and a zero increment never ends. *)
Theorem C54_arc_zero_curvature_refuted : forall fuel v p h len inc, 0 <= len -> pv_add_arc fuel v p h len 0 inc = None.
Proof.
  intros fuel v p h len inc Hl. unfold pv_add_arc. destruct fuel as [|f]; [reflexivity|]. cbn [s_loop].
  destruct (Rleb_spec 0 len); [|lra]. cbv zeta. destruct (s_loop f len _ _); [|reflexivity]. cbn [add_samples].
  unfold calc_arc_position. destruct (Reqb_spec 0 0); [reflexivity|tauto].
Qed.
Print Assumptions C54_arc_zero_curvature_refuted.
Theorem C54_zero_increment_hangs : forall FC FS fuel v p h len k k1, 0 <= len ->
  pv_add_arc fuel v p h len k 0 = None /\ pv_add_spiral FC FS fuel v p h len k k1 0 = None /\ pv_add_line v p h len 0 = None.
Proof.
  intros FC FS fuel v p h len k k1 Hl.
  assert (L : forall f s, s <= len -> s_loop f len 0 s = None).
  { induction f as [|f IH]; intros s Hs; [reflexivity|]. cbn. destruct (Rleb_spec s len); [|lra]. cbv zeta.
    destruct (Rltb_spec (len - s) 0); [lra|]. cbn [andb]. rewrite IH by lra. reflexivity. }
  unfold pv_add_arc, pv_add_spiral, pv_add_line. rewrite (L fuel 0 Hl). destruct (Reqb len 0), (Reqb_spec 0 0); auto; tauto.
Qed.
Print Assumptions C54_zero_increment_hangs.

(** * C46 *)
Lemma abs_le_max (a b x : R) : Rmin a b <= x <= Rmax a b -> Rabs x <= Rmax (Rabs a) (Rabs b).
Proof.
  intros H. unfold Rmax, Rmin, Rabs in *.
  repeat match goal with |- context [Rle_dec ?u ?v] => destruct (Rle_dec u v) | H : context [Rle_dec ?u ?v] |- _ => destruct (Rle_dec u v)
    | |- context [Rcase_abs ?u] => destruct (Rcase_abs u) | H : context [Rcase_abs ?u] |- _ => destruct (Rcase_abs u) end; lra.
Qed.
Lemma heading_turn g a c : g_ok g -> 0 <= a <= c -> c <= g_len g -> Rabs (g_heading g c - g_heading g a) <= g_curvature g * (c - a).
Proof.
  intros (_ & Hl & H) Ha Hc. destruct g as [p h len inc|p h len k inc|p h len k0 k1 inc]; cbn in *.
  - unfold line_heading. rewrite Rminus_eq_0, Rabs_R0. lra.
  - unfold arc_heading. replace (h + k * c - (h + k * a)) with (k * (c - a)) by ring. rewrite Rabs_mult, (Rabs_right (c - a)) by lra. lra.
  - destruct H as [H _]. unfold spiral_heading.
    set (t := (a + c) / (2 * len)).
    replace (h + k0 * c + (k1 - k0) / len * c * c / 2 - (h + k0 * a + (k1 - k0) / len * a * a / 2)) with ((k0 + (k1 - k0) * t) * (c - a)) by (unfold t; field; lra).
    rewrite Rabs_mult, (Rabs_right (c - a)) by lra. apply Rmult_le_compat_r; [lra|]. apply abs_le_max.
    assert (T : 0 <= t <= 1). { unfold t. assert (0 < / (2 * len)) by (apply Rinv_0_lt_compat; lra).
      split; [apply Rmult_le_pos; lra|]. apply Rmult_le_reg_r with (2 * len); [lra|]. unfold Rdiv. rewrite Rmult_assoc, Rinv_l by lra. lra. }
    unfold Rmin, Rmax. destruct (Rle_dec k0 k1); nra.
Qed.
Lemma geom_length FC FS g delta l : fresnel_integrals FC FS -> g_ok g -> 0 <= delta <= PI -> g_curvature g * g_inc g <= delta ->
  sample_grid (g_len g) (g_inc g) l ->
  cos delta * g_len g <= polyline_length (map (g_curve FC FS g) l) <= g_len g.
Proof.
  intros HF HG HD HK G. pose proof (g_curve_ok FC FS g HF HG) as U. destruct HG as (Hi & Hl & H) eqn:EE; clear EE.
  apply sampled_length with (inc := g_inc g); auto. intros a b A1 A2 A3 A4. split; [|eapply chord_le; eauto].
  eapply chord_ge; eauto. intros c Hc. eapply Rle_trans; [apply heading_turn; try lra; repeat split; auto|].
  eapply Rle_trans; [|exact HK]. apply Rmult_le_compat_l; [|lra].
  destruct g; cbn; try lra; [apply Rabs_pos|]. eapply Rle_trans; [apply Rabs_pos|apply Rmax_l].
Qed.

Lemma last_opt_app {A} (l m : list A) x : last_opt (l ++ m ++ [x]) = Some x.
Proof.
  unfold last_opt. rewrite !app_length. cbn. rewrite app_assoc. rewrite nth_error_app2; rewrite app_length; [|lia].
  replace (_ - _)%nat with 0%nat by lia. reflexivity.
Qed.
Definition ends_in (l : list pt) (e : pt) : Prop := last_opt l = Some e.
(** After a chain of geometries the reference line ends where the last curve ends; its length lies between
    cos(delta) times the total length and the total length, where delta bounds the turn within one sampling
    step; GetLength reports the length of the reference line unless the last call was AddArc. *)
Lemma chain_step FC FS g : fresnel_integrals FC FS -> g_ok g -> exists F, forall f v c, (F <= f)%nat ->
  unit_curve c (g_start g) (g_heading g) ->
  (pts (pv_line v) = [] \/ ends_in (pts (pv_line v)) (g_start g)) ->
  exists v', pv_add FC FS f v g = Some v' /\ ends_in (pts (pv_line v')) (c (g_len g)) /\
    (forall delta, 0 <= delta <= PI -> g_curvature g * g_inc g <= delta ->
      cos delta * g_len g <= line_length (pv_line v') - line_length (pv_line v) <= g_len g) /\
    (is_arc g -> pv_get_length v' = pv_get_length v) /\ (~ is_arc g -> pv_get_length v' = line_length (pv_line v')).
Proof.
  intros HF HG. destruct (add_grid FC FS g HG) as [F H]. exists F. intros f v c Hf U Hv. destruct (H v) as (l & G & E). destruct (E f Hf) as (m & Em & A & B).
  assert (Pm : pts m = pts (pv_line v) ++ map (g_curve FC FS g) l) by (rewrite Em; apply add_points_pts).
  assert (X : exists q, pv_add FC FS f v g = Some (mkPV m q) /\ (is_arc g -> q = pv_length v) /\ (~ is_arc g -> q = line_length m)).
  { destruct g; cbn [is_arc] in *; [exists (line_length m)|exists (pv_length v)|exists (line_length m)]; tauto. }
  destruct X as (q & Eq & Q1 & Q2). exists (mkPV m q). split; [exact Eq|]. split; [|split; [|split; auto]].
  - cbn. unfold ends_in. rewrite Pm. destruct (grid_last _ _ _ G) as [r ->]. rewrite map_app. cbn [map].
    rewrite last_opt_app. f_equal. apply (unit_curve_unique _ _ _ _ _ (g_curve_ok FC FS g HF HG) U).
  - intros delta HD HK. pose proof (geom_length FC FS g delta l HF HG HD HK G) as GL. cbn [pv_line].
    enough (EL : line_length m = line_length (pv_line v) + polyline_length (map (g_curve FC FS g) l)) by (rewrite EL; lra).
    unfold line_length. change bg_length with polyline_length. rewrite Pm. destruct Hv as [Hv|Hv].
    + rewrite Hv. cbn. lra.
    + destruct (grid_nonempty _ _ _ G) as [r Hr].
      rewrite (plen_join _ _ (g_start g) (g_start g)); [rewrite dist_refl; lra|exact Hv|].
      rewrite Hr. cbn. f_equal. apply (g_curve_ok FC FS g HF HG).
Qed.
Lemma chain_all FC FS gs : fresnel_integrals FC FS -> Forall g_ok gs -> exists F, forall f v cur e, (F <= f)%nat ->
  chained cur gs e -> (pts (pv_line v) = [] \/ ends_in (pts (pv_line v)) cur) ->
  exists v', pv_add_all FC FS f v gs = Some v' /\ (gs <> [] -> ends_in (pts (pv_line v')) e) /\
    (forall delta, 0 <= delta <= PI -> Forall (fun g => g_curvature g * g_inc g <= delta) gs ->
      cos delta * total_length gs <= line_length (pv_line v') - line_length (pv_line v) <= total_length gs) /\
    (forall gs' g, gs = gs' ++ [g] -> ~ is_arc g -> pv_get_length v' = line_length (pv_line v')).
Proof.
  intros HF. induction gs as [|g gs IH]; intros HG.
  - exists 0%nat. intros f v cur e _ Hc Hv. exists v. cbn in *. subst e. split; [reflexivity|]. split; [tauto|]. split; [intros; lra|].
    intros gs' g E. destruct gs'; discriminate E.
  - inversion HG as [|? ? G1 G2]; subst. destruct (IH G2) as [F2 H2]. destruct (chain_step FC FS g HF G1) as [F1 H1].
    exists (Nat.max F1 F2). intros f v cur e Hf (Es & c & U & Hc) Hv. subst cur.
    destruct (H1 f v c ltac:(lia) U Hv) as (v1 & E1 & L1 & P1 & A1 & B1).
    destruct (H2 f v1 _ e ltac:(lia) Hc (or_intror L1)) as (v2 & E2 & L2 & P2 & B2).
    exists v2. split; [cbn; rewrite E1; exact E2|]. split; [|split].
    + intros _. destruct gs as [|g' gs]; [|apply L2; discriminate]. cbn in E2, Hc. inversion E2; subst. exact L1.
    + intros delta HD HK. inversion HK as [|? ? K1 K2]; subst. specialize (P1 delta HD K1). specialize (P2 delta HD K2). cbn [total_length]. nra.
    + intros gs' g' E Hg. destruct gs' as [|x gs']; cbn in E; inversion E; subst.
      * cbn in E2. inversion E2; subst. auto.
      * eapply B2; eauto.
Qed.

(** If the last geometry is not an arc, GetLength is the total length up to the sampling error. *)
Theorem C46_length_between : forall FC FS gs g start e delta, fresnel_integrals FC FS -> Forall g_ok (gs ++ [g]) ->
  chained start (gs ++ [g]) e -> ~ is_arc g -> 0 <= delta <= PI ->
  Forall (fun g => g_curvature g * g_inc g <= delta) (gs ++ [g]) ->
  exists F, forall f, (F <= f)%nat -> exists v, pv_add_all FC FS f empty_plan_view (gs ++ [g]) = Some v /\
    last_opt (pts (pv_line v)) = Some e /\
    cos delta * total_length (gs ++ [g]) <= pv_get_length v <= total_length (gs ++ [g]).
Proof.
  intros FC FS gs g start e delta HF HG HC HA HD HK. destruct (chain_all FC FS _ HF HG) as [F H]. exists F. intros f Hf.
  destruct (H f empty_plan_view start e Hf HC (or_introl eq_refl)) as (v & E & L & P & B). exists v. split; [exact E|].
  split; [apply L; destruct gs; discriminate|]. rewrite (B gs g eq_refl HA). specialize (P delta HD HK).
  unfold line_length at 2 in P. cbn in P. lra.
Qed.
Print Assumptions C46_length_between.

(** For lines only, GetLength is exactly the sum of the lengths. *)
Theorem C46_lines_exact : forall FC FS gs start e, Forall g_ok gs -> Forall (fun g => exists p h len inc, g = GLine p h len inc) gs ->
  chained start gs e -> exists F, forall f, (F <= f)%nat -> exists v, pv_add_all FC FS f empty_plan_view gs = Some v /\ pv_get_length v = total_length gs.
Proof.
  intros FC FS gs start e HG HL HC.
  (* the Fresnel functions do not matter: use the chain lemma for lines one by one *)
  assert (K : forall gs v cur, Forall g_ok gs -> Forall (fun g => exists p h len inc, g = GLine p h len inc) gs -> chained cur gs e ->
     (pts (pv_line v) = [] \/ ends_in (pts (pv_line v)) cur) -> pv_get_length v = line_length (pv_line v) ->
     forall f, exists v', pv_add_all FC FS f v gs = Some v' /\ pv_get_length v' = line_length (pv_line v) + total_length gs).
  { clear gs HG HL HC. induction gs as [|g gs IH]; intros v cur HG HL HC Hv Hl f.
    - exists v. split; [reflexivity|]. cbn. lra.
    - inversion HG as [|? ? G1 G2]; subst. inversion HL as [|? ? (p & h & len & inc & ->) L2]; subst. destruct HC as (Es & c & U & HC). cbn in Es. subst cur.
      destruct G1 as (Hi & Hn & _). cbn in Hi, Hn.
      destruct (add_line_grid v p h len inc Hi Hn) as (l & G & E).
      set (m := fold_left (fun m s => add_point m (line_place p h s)) l (pv_line v)) in *.
      assert (Pm : pts m = pts (pv_line v) ++ map (line_place p h) l) by apply add_points_pts.
      assert (Lm : line_length m = line_length (pv_line v) + len).
      { assert (W : polyline_length (map (line_place p h) l) = len).
        { enough (1 * len <= polyline_length (map (line_place p h) l) <= len) by lra.
          apply sampled_length with inc; auto. intros a b A1 A2 _ _.
          pose proof (chord_le _ _ _ a b (line_curve p h) A2).
          pose proof (chord_ge _ _ _ a b 0 (line_curve p h) A2 ltac:(pose proof PI_RGT_0; lra)) as K. rewrite cos_0 in K. split; [|auto].
          apply K. intros. unfold line_heading. rewrite Rminus_eq_0, Rabs_R0. lra. }
        unfold line_length. change bg_length with polyline_length. rewrite Pm. destruct Hv as [Hv|Hv].
        - rewrite Hv. cbn. lra.
        - destruct (grid_nonempty _ _ _ G) as [r Hr]. rewrite (plen_join _ _ p p); [rewrite dist_refl; lra|exact Hv|].
          rewrite Hr. cbn. f_equal. apply (line_curve p h). }
      destruct (IH (mkPV m (line_length m)) (c len) G2 L2 HC) with (f := f) as (v' & E' & Ev'); [right|reflexivity|].
      + cbn. unfold ends_in. rewrite Pm. destruct (grid_last _ _ _ G) as [r ->]. rewrite map_app. cbn [map].
        rewrite last_opt_app. f_equal. apply (unit_curve_unique _ _ _ _ _ (line_curve p h) U).
      + exists v'. split; [cbn [pv_add_all pv_add]; rewrite E; exact E'|]. rewrite Ev'. cbn [total_length g_len pv_line]. rewrite Lm. ring. }
  exists 0%nat. intros f _. destruct (K gs empty_plan_view start HG HL HC (or_introl eq_refl) eq_refl f) as (v & E & L).
  exists v. split; [exact E|]. rewrite L. cbn. lra.
Qed.
Print Assumptions C46_lines_exact.

(** AddArc never changes GetLength, so every trailing arc is missing. *)
Theorem C46_arc_not_counted : forall fuel v p h len k inc v', pv_add_arc fuel v p h len k inc = Some v' ->
  pv_get_length v' = pv_get_length v.
Proof.
  intros fuel v p h len k inc v'. unfold pv_add_arc. destruct (s_loop fuel len inc 0); [|discriminate].
  destruct (add_samples _ _ _); [|discriminate]. intros E. inversion E. reflexivity.
Qed.
Print Assumptions C46_arc_not_counted.
Theorem C46_trailing_arc_refuted : forall FC FS gs start e, fresnel_integrals FC FS -> gs <> [] -> Forall g_ok gs ->
  Forall is_arc gs -> 0 < total_length gs -> chained start gs e ->
  exists F, forall f, (F <= f)%nat -> exists v, pv_add_all FC FS f empty_plan_view gs = Some v /\
    last_opt (pts (pv_line v)) = Some e /\ pv_get_length v = 0 /\ pv_get_length v <> total_length gs.
Proof.
  intros FC FS gs start e HF NE HG HA HL HC. destruct (chain_all FC FS _ HF HG) as [F H]. exists F. intros f Hf.
  destruct (H f empty_plan_view start e Hf HC (or_introl eq_refl)) as (v & E & L & _). exists v. split; [exact E|]. split; [apply L, NE|].
  assert (Z : pv_get_length v = 0).
  { assert (K : forall gs v v', Forall is_arc gs -> pv_add_all FC FS f v gs = Some v' -> pv_get_length v' = pv_get_length v).
    { clear. induction gs as [|g gs IH]; intros v v' HA E; cbn in E; [inversion E; auto|]. inversion HA as [|? ? A1 A2]; subst.
      destruct (pv_add FC FS f v g) as [v1|] eqn:E1; [|discriminate]. rewrite (IH _ _ A2 E).
      destruct g; cbn in A1; try tauto. cbn in E1. eapply C46_arc_not_counted; eauto. }
    rewrite (K _ _ _ HA E). reflexivity. }
  split; [exact Z|]. lra.
Qed.
Print Assumptions C46_trailing_arc_refuted.

(** Example: a line, a half circle and a line back. *)
Example C46_chain_satisfiable :
  let gs := [GLine (0, 0) 0 3 2; GArc (3, 0) 0 PI 1 1; GLine (3, 2) PI 1 2] in
  Forall g_ok gs /\ chained (0, 0) gs (2, 2) /\ Forall (fun g => g_curvature g * g_inc g <= 1) gs /\ 0 <= 1 <= PI.
Proof.
  pose proof PI_RGT_0. pose proof PI2_3_2. cbv zeta. split; [|split; [|split]].
  - repeat constructor; cbn; try lra.
  - cbn [chained g_start g_heading g_len]. split; [reflexivity|]. exists (line_place (0, 0) 0). split; [apply line_curve|].
    split. { unfold line_place. cbn. rewrite cos_0, sin_0. f_equal; ring. }
    exists (arc_place (3, 0) 0 1). split. { unfold line_place. cbn. rewrite cos_0, sin_0. replace (0 + 3 * 1, 0 + 3 * 0) with (3, 0) by (f_equal; ring). apply arc_curve. lra. }
    split. { unfold arc_place. cbn. rewrite Rplus_0_l, Rmult_1_l, cos_0, sin_0, cos_PI, sin_PI. f_equal; field. }
    exists (line_place (3, 2) PI). split.
    { unfold arc_place. cbn. rewrite Rplus_0_l, Rmult_1_l, cos_0, sin_0, cos_PI, sin_PI. replace (3 + (0 - 0) / 1, 0 + (1 - -1) / 1) with (3, 2) by (f_equal; field). apply line_curve. }
    unfold line_place. cbn. rewrite cos_PI, sin_PI. f_equal; ring.
  - apply Forall_cons; [cbn; lra|]. apply Forall_cons; [cbn; rewrite Rabs_R1; lra|]. apply Forall_cons; [cbn; lra|apply Forall_nil].
  - lra.
Qed.

(** * C55: ApplyOffsetTransform *)
Theorem C55_offset_transform : forall v x y h,
  let v' := pv_apply_offset v x y h in
  length (pts (pv_line v')) = length (pts (pv_line v)) /\
  (forall i r a, nth_error (pts (pv_line v)) i = Some (r * cos a, r * sin a) ->
     nth_error (pts (pv_line v')) i = Some (x + r * cos (a - h), y + r * sin (a - h))) /\
  line_length (pv_line v') = line_length (pv_line v) /\ pv_get_length v' = pv_get_length v.
Proof.
  intros v x y h. cbn. rewrite !map_length. split; [reflexivity|]. split; [|split; [|reflexivity]].
  - intros i r a H. rewrite map_map, nth_error_map, H. cbn. unfold shift_pt, rot_cw. cbn. rewrite cos_minus, sin_minus. f_equal. f_equal; ring.
  - unfold line_length. cbn. rewrite map_map. apply plen_map. intros p q.
    rewrite <- (rot_dist h p q). unfold shift_pt, dist. cbn [fst snd]. f_equal. ring.
Qed.
Print Assumptions C55_offset_transform.

(** OpenDRIVE headings count counterclockwise: for every heading that is not a multiple of pi the transformed
    points are wrong, except at the origin. *)
Theorem C55_counterclockwise_refuted : forall v x y h i px py, sin h <> 0 ->
  nth_error (pts (pv_line v)) i = Some (px, py) -> (px, py) <> (0, 0) ->
  nth_error (pts (pv_line (pv_apply_offset v x y h))) i <>
  Some (x + (px * cos h - py * sin h), y + (px * sin h + py * cos h)).
Proof.
  intros v x y h i px py Hs Hi Hn E. cbn in E. rewrite map_map, nth_error_map, Hi in E. cbn in E. unfold shift_pt, rot_cw in E. cbn in E.
  inversion E as [[E1 E2]]. apply Hn.
  assert (A : 2 * sin h * py = 0) by lra. assert (B : 2 * sin h * px = 0) by lra.
  apply Rmult_integral in A, B. f_equal; destruct A, B; try lra.
Qed.
Print Assumptions C55_counterclockwise_refuted.
(** The stored arc lengths are lost: looking up positions along the transformed reference line is undefined. *)
Theorem C55_positions_lost_refuted : forall v x y h s, (2 <= length (pts (pv_line v)))%nat -> 0 < s ->
  get_point_at_s (pv_line (pv_apply_offset v x y h)) s = None.
Proof.
  intros v x y h s L Hs. cbn [pv_apply_offset pv_line]. apply C25_translate_refuted; auto. cbn. rewrite map_length. exact L.
Qed.
Print Assumptions C55_positions_lost_refuted.
Example C55_satisfiable : exists v, pv_add_line empty_plan_view (0, 0) 0 1 1 = Some v /\ (2 <= length (pts (pv_line v)))%nat /\ sin (PI / 2) <> 0 /\
  exists i px py, nth_error (pts (pv_line v)) i = Some (px, py) /\ (px, py) <> (0, 0).
Proof.
  destruct (add_line_grid empty_plan_view (0, 0) 0 1 1 ltac:(lra) ltac:(lra)) as (l & G & E). eexists. split; [exact E|].
  cbn [pv_line]. rewrite add_points_pts. cbn [pts pv_line empty_plan_view empty_line app].
  assert (El : l = [0; 1]).
  { destruct G as [[Z _]|(_ & n & Hn & ->)]; [lra|]. assert (n = 0%nat) by (destruct n as [|n]; auto; rewrite !S_INR in Hn; pose proof (pos_INR n); lra).
    subst n. cbn. f_equal. ring. }
  subst l. split; [cbn; lia|]. rewrite sin_PI2. split; [lra|]. exists 1%nat. cbn. do 2 eexists. split; [reflexivity|].
  rewrite cos_0, sin_0. intros X. inversion X. lra.
Qed.

(** * C56: lane borders *)
Lemma offset_rest_pts scale : forall l prev acc, exists ds, pts (offset_rest scale prev l acc) = pts acc ++ ds /\
  length ds = length l /\
  forall i a b d, nth_error (prev :: l) i = Some a -> nth_error l i = Some b -> nth_error ds i = Some d -> d = off_pt b (seg_normal a b) scale.
Proof.
  induction l as [|c l IH]; intros prev acc; cbn [offset_rest].
  - exists []. rewrite app_nil_r. repeat split; auto. intros i a b d _ H. destruct i; discriminate.
  - destruct (IH c (add_point acc (off_pt c (seg_normal prev c) scale))) as (ds & E & L & H).
    exists (off_pt c (seg_normal prev c) scale :: ds). split; [rewrite E; cbn; rewrite <- app_assoc; reflexivity|]. split; [cbn; lia|].
    intros [|i] a b d Ha Hb Hd.
    + cbn in Ha, Hb, Hd. inversion Ha; inversion Hb; inversion Hd; subst. reflexivity.
    + eapply (H i); auto.
Qed.
Lemma seg_normal_unit a b : fst (seg_normal a b) * fst (seg_normal a b) + snd (seg_normal a b) * snd (seg_normal a b) = 1.
Proof. unfold seg_normal. cbn. pose proof (sin2_cos2 (seg_angle a b + asin 1)) as T. unfold Rsqr in T. lra. Qed.
Lemma off_pt_dist p n k : fst n * fst n + snd n * snd n = 1 -> dist p (off_pt p n k) = Rabs k.
Proof.
  intros N. unfold dist, off_pt. cbn [fst snd]. replace (_ + _) with (k² * (fst n * fst n + snd n * snd n)) by (unfold Rsqr; ring).
  rewrite N, Rmult_1_r. apply sqrt_Rsqr_abs.
Qed.
Lemma off_pt_left a b k : left_offset a b (off_pt b (seg_normal a b) k) k.
Proof.
  unfold left_offset, off_pt, seg_normal. cbn [fst snd]. rewrite asin1. destruct (seg_angle_polar a b) as [PC PS].
  replace (cos (seg_angle a b + PI / 2)) with (- sin (seg_angle a b)) by (rewrite cos_plus, cos_PI2, sin_PI2; ring).
  replace (sin (seg_angle a b + PI / 2)) with (cos (seg_angle a b)) by (rewrite sin_plus, cos_PI2, sin_PI2; ring).
  pose proof (sin2_cos2 (seg_angle a b)) as T1. unfold Rsqr in T1.
  transitivity (k * ((fst b - fst a) * cos (seg_angle a b) + (snd b - snd a) * sin (seg_angle a b))); [ring|].
  rewrite <- PC, <- PS. transitivity (k * dist a b * (sin (seg_angle a b) * sin (seg_angle a b) + cos (seg_angle a b) * cos (seg_angle a b))); [ring|].
  rewrite T1. ring.
Qed.
Lemma off_pt_left0 a b k : left_offset a b (off_pt a (seg_normal a b) k) k.
Proof.
  pose proof (off_pt_left a b k) as H. unfold left_offset, off_pt in *. cbn [fst snd] in *. rewrite <- H. ring.
Qed.
(** Side of a lane: lanes with positive id lie to the left of the reference line. *)
Definition side (id : Z) : R := if Z.ltb 0 id then 1 else -1.
Lemma lane_scale_side id w : lane_scale id w = side id * w.
Proof. unfold lane_scale, side. destruct (Z.ltb 0 id); ring. Qed.
Lemma side_abs id w : Rabs (side id * w) = Rabs w.
Proof. unfold side. rewrite Rabs_mult. destruct (Z.ltb 0 id); [rewrite Rabs_R1|rewrite Rabs_left by lra]; lra. Qed.

(** Constant width over the whole inner border: before the final simplification the outer border has one
    vertex per vertex of the (simplified) inner border, at the lane width from it, on the side of the lane with
    respect to the segment that ends there (starts there, for the first one). *)
Theorem C56_constant_width : forall simp fuel prev id w inc delta,
  let inner := simp (bg_unique (pts prev)) delta in
  lw_b w = 0 -> lw_c w = 0 -> lw_d w = 0 -> lw_start w = 0 -> polyline_length inner <= lw_end w -> (2 <= length inner)%nat ->
  exists l ds, create_line_with_offset simp fuel prev id w inc delta = Some l /\
    pts l = simp ds delta /\ arc_lengths_of (pts l) (ss l) /\ length ds = length inner /\
    (forall i v q, nth_error inner i = Some v -> nth_error ds i = Some q -> dist v q = Rabs (lw_a w)) /\
    (forall i a b q, nth_error inner i = Some a -> nth_error inner (S i) = Some b -> nth_error ds (S i) = Some q ->
       left_offset a b q (side id * lw_a w)) /\
    (forall a b q, nth_error inner 0 = Some a -> nth_error inner 1 = Some b -> nth_error ds 0 = Some q ->
       left_offset a b q (side id * lw_a w)).
Proof.
  intros simp fuel prev id w inc delta inner Hb Hc Hd Hs He HL. unfold create_line_with_offset. cbv zeta.
  cbn [pts]. change (simplify_line simp (mkLine (bg_unique (pts prev)) (ss prev)) delta) with (of_points inner).
  cbn [pts of_points]. rewrite Hb, Hc, Hd, Hs. unfold line_length. cbn [pts of_points]. change bg_length with polyline_length.
  destruct (Reqb_spec 0 0) as [_|]; [|tauto]. cbn [andb]. destruct (Nat.ltb_spec 1 (length inner)); [|lia].
  match goal with |- context [Rltb (Rabs ?e) 1] => assert (E0 : Rabs e = 0) end.
  { rewrite Rminus_0_r. destruct (Rltb_spec (polyline_length inner) (lw_end w)); match goal with |- Rabs ?e = 0 => replace e with 0 by lra end; apply Rabs_R0. }
  rewrite E0. destruct (Rltb_spec 0 1); [|lra]. cbn [andb].
  destruct inner as [|p0 [|p1 r]] eqn:Ei; cbn [length] in HL; try lia.
  set (k := lane_scale id (lw_a w)). assert (Ek : k = side id * lw_a w) by apply lane_scale_side.
  destruct (offset_rest_pts k (p1 :: r) p0 (add_point empty_line (off_pt p0 (seg_normal p0 p1) k))) as (ds & E & L & H2).
  eexists. exists (off_pt p0 (seg_normal p0 p1) k :: ds). split; [reflexivity|]. split; [unfold simplify_line at 1; cbn [pts of_points]; rewrite E; reflexivity|].
  split; [apply recompute_spec|]. split; [cbn in *; lia|]. split; [|split].
  - intros [|i] v q Hv Hq; cbn in Hq.
    + cbn in Hv. inversion Hv; inversion Hq; subst. rewrite off_pt_dist by apply seg_normal_unit. rewrite Ek. apply side_abs.
    + destruct (nth_some (p0 :: p1 :: r) i) as [a Ha]. { pose proof (nth_lt _ _ _ Hv). cbn in *. lia. }
      rewrite (H2 i a v q Ha Hv Hq), off_pt_dist by apply seg_normal_unit. rewrite Ek. apply side_abs.
  - intros i a b q Ha Hb' Hq. rewrite (H2 i a b q Ha Hb' Hq), Ek. apply off_pt_left.
  - intros a b q Ha Hb' Hq. cbn in Ha, Hb', Hq. inversion Ha; inversion Hb'; inversion Hq; subst. rewrite Ek. apply off_pt_left0.
Qed.
Print Assumptions C56_constant_width.

(** Otherwise the outer border is sampled at the distances [inc] along the inner border, from the start of the width
    entry to its end (or the end of the border): each sample is at the distance the width polynomial gives,
    measured from the start of the entry, along the normal. *)
Theorem C56_variable_width : forall simp prev id w inc delta,
  let inner := simp (bg_unique (pts prev)) delta in
  let s_end := Rmin (lw_end w) (polyline_length inner) in
  (lw_b w <> 0 \/ lw_c w <> 0 \/ lw_d w <> 0 \/ lw_start w <> 0) -> 0 < inc -> lw_start w <= s_end -> (2 <= length inner)%nat ->
  exists F, forall fuel, (F <= fuel)%nat -> exists l ds g, create_line_with_offset simp fuel prev id w inc delta = Some l /\
    pts l = simp ds delta /\ sample_grid (s_end - lw_start w) inc g /\
    Forall2 (fun x q => exists p n, let width := polynom x (lw_a w) (lw_b w) (lw_c w) (lw_d w) in
        get_point_at_s (of_points inner) (lw_start w + x) = Some p /\ get_normal_at_s (of_points inner) (lw_start w + x) = Some n /\
        q = padd p (pscale n (side id * width)) /\ dist p q = Rabs width) g ds.
Proof.
  intros simp prev id w inc delta inner s_end NC Hi Hs HL.
  destruct (s_loop_spec (lw_start w) s_end inc Hi Hs) as (F & g & G & H). exists F. intros fuel Hf.
  unfold create_line_with_offset. cbv zeta. cbn [pts].
  change (simplify_line simp (mkLine (bg_unique (pts prev)) (ss prev)) delta) with (of_points inner).
  match goal with |- context [if ?c then _ else _] => lazymatch c with Reqb (lw_b w) 0 && _ && _ && _ && _ && _ => assert (E : c = false); [|rewrite E; clear E] end end.
  { destruct (Reqb_spec (lw_b w) 0); [|reflexivity]. destruct (Reqb_spec (lw_c w) 0); [|reflexivity]. destruct (Reqb_spec (lw_d w) 0); [|reflexivity].
    destruct (Reqb_spec (lw_start w) 0); [tauto|]. cbn [andb]. rewrite andb_false_r. reflexivity. }
  replace (if Rltb (line_length (of_points inner)) (lw_end w) then line_length (of_points inner) else lw_end w) with s_end.
  2:{ unfold s_end, line_length. cbn [pts of_points]. change bg_length with polyline_length. unfold Rmin.
      destruct (Rle_dec (lw_end w) (polyline_length inner)), (Rltb_spec (polyline_length inner) (lw_end w)); lra. }
  rewrite (H fuel Hf).
  set (sp := of_points inner). assert (Cs : consistent sp) by apply recompute_spec. assert (Ls : (2 <= length (pts sp))%nat) by exact HL.
  set (place := fun s' => match get_point_at_s sp s', get_normal_at_s sp s' with
          | Some p, Some n => Some (off_pt p n (lane_scale id (polynom (s' - lw_start w) (lw_a w) (lw_b w) (lw_c w) (lw_d w)))) | _, _ => None end).
  assert (PL : forall s, exists p n, get_point_at_s sp s = Some p /\ get_normal_at_s sp s = Some n /\ fst n * fst n + snd n * snd n = 1).
  { intros s. destruct (get_point_spec sp s Cs Ls) as (P & EP & _). destruct (tangent_defined sp s Cs Ls) as [a Ea].
    exists P, (cos (a + asin 1), sin (a + asin 1)). split; auto. unfold get_normal_at_s. rewrite Ea. split; [reflexivity|]. cbn.
    pose proof (sin2_cos2 (a + asin 1)) as T. unfold Rsqr in T. lra. }
  assert (AS : forall g acc, exists m ds, add_samples place acc (map (Rplus (lw_start w)) g) = Some m /\ pts m = pts acc ++ ds /\
     Forall2 (fun x q => exists p n, let width := polynom x (lw_a w) (lw_b w) (lw_c w) (lw_d w) in
        get_point_at_s sp (lw_start w + x) = Some p /\ get_normal_at_s sp (lw_start w + x) = Some n /\
        q = padd p (pscale n (side id * width)) /\ dist p q = Rabs width) g ds).
  { clear g G H. induction g as [|x g IH]; intros acc; cbn [map add_samples].
    - exists acc, []. rewrite app_nil_r. auto.
    - destruct (PL (lw_start w + x)) as (p & n & Ep & En & N). unfold place at 1. rewrite Ep, En.
      replace (lw_start w + x - lw_start w) with x by ring.
      set (q := off_pt p n (lane_scale id (polynom x (lw_a w) (lw_b w) (lw_c w) (lw_d w)))).
      destruct (IH (add_point acc q)) as (m & ds & Em & Pm & Fm). exists m, (q :: ds). split; [exact Em|].
      split; [rewrite Pm; cbn; rewrite <- app_assoc; reflexivity|]. constructor; auto. exists p, n. cbv zeta. split; [auto|]. split; [auto|].
      split.
      + unfold q, off_pt, padd, pscale. rewrite lane_scale_side. cbn [fst snd]. f_equal; ring.
      + unfold q. rewrite off_pt_dist by auto. rewrite lane_scale_side. apply side_abs. }
  destruct (AS g empty_line) as (m & ds & Em & Pm & Fm). rewrite Em. eexists _, ds, g. split; [reflexivity|].
  split; [unfold simplify_line, of_points; cbn [pts]; rewrite Pm; reflexivity|]. split; [exact G|exact Fm].
Qed.
Print Assumptions C56_variable_width.

(** XodrLane::append puts the new piece after the lane's line and renews the arc lengths. *)
Theorem C56_append : forall simp fuel lane prev pos w inc l, create_line_with_offset simp fuel prev pos w inc (1 / 1000) = Some l ->
  exists m, lane_append simp fuel lane prev pos w inc = Some m /\ pts m = pts lane ++ pts l /\ arc_lengths_of (pts m) (ss m).
Proof.
  intros simp fuel lane prev pos w inc l E. unfold lane_append. rewrite E. eexists. split; [reflexivity|]. split; [reflexivity|apply recompute_spec].
Qed.
Print Assumptions C56_append.

(** Example: a left lane of width 3 along a straight border; a simplify function that changes nothing. *)
Example C56_satisfiable :
  let simp := fun (l : list pt) (_ : R) => l in
  let prev := of_points [(0, 0); (10, 0)] in
  let w := mkLW 0 10 3 0 0 0 in
  let w' := mkLW 2 10 3 (1/10) 0 0 in
  (2 <= length (simp (bg_unique (pts prev)) (1/1000)%R))%nat /\ polyline_length (simp (bg_unique (pts prev)) (1/1000)%R) <= lw_end w /\
  (lw_b w' <> 0 \/ lw_c w' <> 0 \/ lw_d w' <> 0 \/ lw_start w' <> 0) /\
  lw_start w' <= Rmin (lw_end w') (polyline_length (simp (bg_unique (pts prev)) (1/1000)%R)).
Proof.
  assert (D : dist (0, 0) (10, 0) = 10).
  { unfold dist. cbn. replace (_ + _) with (10²) by (unfold Rsqr; ring). apply sqrt_Rsqr. lra. }
  cbn. destruct (pt_eq_dec (0, 0) (10, 0)) as [X|_]; [inversion X; lra|]. cbn. rewrite D. split; [lia|]. split; [lra|]. split; [left; lra|].
  unfold Rmin. destruct (Rle_dec _ _); lra.
Qed.
