(** C109: where the pygame viewer draws things.  C110: layers, colours, dashes. *)

From Coq Require Import String Ascii List ZArith QArith NArith Bool Qround Qabs Lia Lqa.
From Verif Require Import Model_Map Model_Viewer Model_Pygame.
Import ListNotations.
Local Open Scope Q_scope.

Lemma floor_le x : inject_Z (Qfloor x) <= x. Proof. apply Qfloor_le. Qed.
Lemma floor_lt x : x < inject_Z (Qfloor x) + 1.
Proof. pose proof (Qlt_floor x). rewrite inject_Z_plus in H. exact H. Qed.
Lemma around_close x : - (1 # 2) <= around x - x <= 1 # 2.
Proof.
  unfold around. pose proof (floor_le x) as A. pose proof (floor_lt x) as B.
  destruct (Qle_bool (1 # 2) (x - inject_Z (Qfloor x))) eqn:E1; cbn [negb].
  - apply Qle_bool_iff in E1. destruct (Qle_bool (x - inject_Z (Qfloor x)) (1 # 2)) eqn:E2; cbn [negb].
    + apply Qle_bool_iff in E2. destruct (Z.even (Qfloor x)); [lra|]. rewrite inject_Z_plus. change (inject_Z 1) with 1. lra.
    + rewrite inject_Z_plus. change (inject_Z 1) with 1. lra.
  - assert (~ (1 # 2) <= x - inject_Z (Qfloor x)) as N by (rewrite <- Qle_bool_iff; congruence). lra.
Qed.

(** The window of the world on the screen: the scrolling camera shows the view, all of it and
    nothing else; x grows to the right, y upwards. *)
Theorem C109_screen_is_the_view : forall g m v p,
  g_bounds g = false -> 0 < g_w g -> 0 < g_h g ->
  fst (m_view m) == snd (fst v) - fst (fst v) -> snd (m_view m) == snd (snd v) - fst (snd v) ->
  0 < fst (m_view m) -> 0 < snd (m_view m) ->
  let s := on_screen g m v p in
  (fst (fst v) <= fst p <= snd (fst v) <-> 0 <= fst s <= g_w g) /\
  (fst (snd v) <= snd p <= snd (snd v) <-> 0 <= snd s <= g_h g) /\
  fst s * fst (m_view m) == (fst p - fst (fst v)) * g_w g /\
  snd s * snd (m_view m) == (snd (snd v) - snd p) * g_h g.
Proof.
  intros g m v p B W H X Y PX PY s. unfold s, on_screen. rewrite B. cbn [fst snd].
  set (cx := fst (m_view m)) in *. set (cy := snd (m_view m)) in *. set (w := g_w g) in *. set (hh := g_h g) in *.
  set (x := fst p) in *. set (y := snd p) in *. set (x0 := fst (fst v)) in *. set (x1 := snd (fst v)) in *.
  set (y0 := fst (snd v)) in *. set (y1 := snd (snd v)) in *.
  assert (E1 : (0 + (x - x0) * 1 / cx * w) * cx == (x - x0) * w) by (field; lra).
  assert (E2 : (hh + (y - y0) * - (1) / cy * hh) * cy == (y1 - y) * hh).
  { transitivity (hh * cy - (y - y0) * hh); [field; lra|]. rewrite Y. ring. }
  remember (0 + (x - x0) * 1 / cx * w) as sx eqn:Hx. remember (hh + (y - y0) * - (1) / cy * hh) as sy eqn:Hy. clear Hx Hy.
  split; [|split; [|split; assumption]].
  - split; intros [A C]; split.
    + apply (Qmult_le_r 0 sx cx PX). rewrite E1. nra.
    + apply (Qmult_le_r sx w cx PX). rewrite E1, X. nra.
    + nra.
    + assert (sx * cx <= w * cx) by (apply Qmult_le_compat_r; lra). rewrite E1, X in H0. nra.
  - split; intros [A C]; split.
    + apply (Qmult_le_r 0 sy cy PY). rewrite E2. nra.
    + apply (Qmult_le_r sy hh cy PY). rewrite E2, Y. nra.
    + assert (sy * cy <= hh * cy) by (apply Qmult_le_compat_r; lra). rewrite E2, Y in H0. nra.
    + nra.
Qed.
Print Assumptions C109_screen_is_the_view.

Lemma within_iff a x l : within a x l = true <-> a <= x <= a + l.
Proof. unfold within. rewrite andb_true_iff, !Qle_bool_iff. reflexivity. Qed.

(** Scrolling camera, scales equal: a point of a lane is drawn where a shape with that point
    is drawn, up to half a pixel; nothing of the view is missing but a margin of a pixel. *)
Theorem C109_map_under_shapes : forall g m v p,
  g_bounds g = false -> 0 < g_w g -> 0 < g_h g ->
  fst (m_view m) == snd (fst v) - fst (fst v) -> snd (m_view m) == snd (snd v) - fst (snd v) ->
  0 < fst (m_view m) -> 0 < snd (m_view m) ->
  m_ratio m * fst (m_view m) == g_w g -> m_ratio m * snd (m_view m) == g_h g ->
  let s := on_screen g m v p in
  (forall q, map_on_screen g m v p = Some q ->
     - (1 # 2) <= fst q - fst s <= 1 # 2 /\ - (1 # 2) <= snd q - snd s <= 1 # 2) /\
  (1 <= fst s <= g_w g - 1 -> 1 <= snd s <= g_h g - 1 -> exists q, map_on_screen g m v p = Some q).
Proof.
  intros g m v p B W H X Y PX PY RX RY s.
  destruct (C109_screen_is_the_view g m v p B W H X Y PX PY) as (_ & _ & E1 & E2). fold s in E1, E2.
  unfold map_on_screen, map_part, map_dest, on_surface. rewrite B. cbn [fst snd].
  set (cx := fst (m_view m)) in *. set (cy := snd (m_view m)) in *. set (w := g_w g) in *. set (hh := g_h g) in *.
  set (x := fst p) in *. set (y := snd p) in *. set (x0 := fst (fst v)) in *. set (x1 := snd (fst v)) in *.
  set (y0 := fst (snd v)) in *. set (y1 := snd (snd v)) in *. set (r := m_ratio m) in *.
  set (mx := fst (m_min m)). set (my := snd (m_max m)). set (sx := fst s) in *. set (sy := snd s) in *.
  assert (S1 : sx == (x - x0) * r). { apply (Qmult_inj_r sx _ cx); [lra|]. rewrite E1, <- RX. ring. }
  assert (S2 : sy == (y1 - y) * r). { apply (Qmult_inj_r sy _ cy); [lra|]. rewrite E2, <- RY. ring. }
  pose proof (around_close ((x0 - mx) * 1 * r)) as A1. pose proof (around_close ((y1 - my) * - (1) * r)) as A2.
  pose proof (around_close (cx * r)) as A3. pose proof (around_close (cy * r)) as A4.
  set (a1 := around ((x0 - mx) * 1 * r)) in *. set (a2 := around ((y1 - my) * - (1) * r)) in *.
  set (a3 := around (cx * r)) in *. set (a4 := around (cy * r)) in *.
  assert (T1 : (x - mx) * 1 * r == (x0 - mx) * 1 * r + sx) by (rewrite S1; ring).
  assert (T2 : (y - my) * - (1) * r == (y1 - my) * - (1) * r + sy) by (rewrite S2; ring).
  assert (U1 : cx * r == w) by (rewrite <- RX; ring). assert (U2 : cy * r == hh) by (rewrite <- RY; ring).
  set (b1 := (x0 - mx) * 1 * r) in *. set (b2 := (y1 - my) * - (1) * r) in *.
  set (c1 := (x - mx) * 1 * r) in *. set (c2 := (y - my) * - (1) * r) in *.
  change (inject_Z (Qfloor 0)) with 0. split.
  - intros q. destruct (within a1 c1 a3 && within a2 c2 a4)%bool; [|discriminate]. intros E. injection E as <-. cbn [fst snd]. split; lra.
  - intros I1 I2. assert (within a1 c1 a3 = true) as V1 by (apply within_iff; lra).
    assert (within a2 c2 a4 = true) as V2 by (apply within_iff; lra). rewrite V1, V2. cbn [andb]. eauto.
Qed.
Print Assumptions C109_map_under_shapes.

(** The scales are equal for a square screen if the visible length is the smaller one of the
    two configured ranges (as with the default settings), from the first picture on. *)
Lemma Qmax2_cases a b : (Qmax2 a b = b /\ a <= b) \/ (Qmax2 a b = a /\ b < a).
Proof.
  unfold Qmax2. destruct (Qle_bool a b) eqn:E; [left; split; [reflexivity|now apply Qle_bool_iff]|right; split; [reflexivity|]].
  assert (~ a <= b) by (rewrite <- Qle_bool_iff; congruence). lra.
Qed.
Lemma Qmin2_cases a b : (Qmin2 a b = a /\ a <= b) \/ (Qmin2 a b = b /\ b < a).
Proof.
  unfold Qmin2. destruct (Qle_bool a b) eqn:E; [left; split; [reflexivity|now apply Qle_bool_iff]|right; split; [reflexivity|]].
  assert (~ a <= b) by (rewrite <- Qle_bool_iff; congruence). lra.
Qed.
Lemma max_of_inverse w a b : 0 < w -> 0 < a -> 0 < b -> forall l, (l == a /\ a <= b \/ l == b /\ b <= a) -> Qmax2 (w / a) (w / b) * l == w.
Proof.
  intros W A B l C. assert (Ea : w / a * a == w) by (field; lra). assert (Eb : w / b * b == w) by (field; lra).
  remember (w / a) as u eqn:Hu. remember (w / b) as t eqn:Ht. clear Hu Ht.
  assert (0 < u) by (apply (Qmult_lt_r 0 u a A); rewrite Ea; lra). assert (0 < t) by (apply (Qmult_lt_r 0 t b B); rewrite Eb; lra).
  destruct (Qmax2_cases u t) as [[-> L]|[-> L]]; destruct C as [[-> C]|[-> C]]; try assumption; nra.
Qed.
Theorem C109_default_scales_agree : forall g roads c mid old m v w0,
  g_bounds g = false -> g_w g = w0 -> g_h g = w0 -> 0 < w0 ->
  v = range_around c 1 mid old -> enforce_x c = true -> enforce_y c = false -> 0 < x_length c ->
  g_xr g = x_range c -> g_yr g = y_range c ->
  let lx := snd (x_range c) - fst (x_range c) in
  let ly := snd (y_range c) - fst (y_range c) in
  0 < lx -> 0 < ly -> (x_length c == lx /\ lx <= ly \/ x_length c == ly /\ ly <= lx) ->
  first_map g roads v = Some m ->
  fst (m_view m) == x_length c /\ snd (m_view m) == x_length c /\
  m_ratio m * fst (m_view m) == g_w g /\ m_ratio m * snd (m_view m) == g_h g.
Proof.
  intros g roads c mid old m v w0 B EW EH W V EX EY PL GX GY lx ly LX LY C F.
  unfold first_map in F. destruct roads as [|r0 roads]; [discriminate|]. destruct (lanes_box (concat (r0 :: roads))) as [[lo hi]|]; [|discriminate].
  injection F as <-. rewrite B. cbn [m_view m_ratio fst snd].
  assert (S1 : snd (fst v) - fst (fst v) == x_length c) by (subst v; unfold range_around; rewrite EX, EY; cbn [fst snd]; field).
  assert (S2 : snd (snd v) - fst (snd v) == x_length c) by (subst v; unfold range_around; rewrite EX, EY; cbn [fst snd]; field).
  split; [exact S1|]. split; [exact S2|]. rewrite EW, EH, GX, GY. fold lx ly.
  split; [rewrite S1|rewrite S2]; now apply max_of_inverse.
Qed.
Print Assumptions C109_default_scales_agree.

(** Otherwise the map has a scale of its own: between two points it goes wrong by their
    distance times the difference of the scales. *)
Theorem C109_scale_always_agrees_refuted : forall g m v p p' q q',
  g_bounds g = false -> 0 < fst (m_view m) -> 0 < snd (m_view m) ->
  map_on_screen g m v p = Some q -> map_on_screen g m v p' = Some q' ->
  let s := on_screen g m v p in let s' := on_screen g m v p' in
  (fst q - fst q') - (fst s - fst s') == (m_ratio m - g_w g / fst (m_view m)) * (fst p - fst p') /\
  (snd q - snd q') - (snd s - snd s') == - (m_ratio m - g_h g / snd (m_view m)) * (snd p - snd p').
Proof.
  intros g m v p p' q q' B PX PY Q Q' s s'. unfold map_on_screen in Q, Q'. destruct (map_part g m v) as [o sz].
  destruct (within _ _ _ && within _ _ _)%bool in Q; [|discriminate]. destruct (within _ _ _ && within _ _ _)%bool in Q'; [|discriminate].
  injection Q as <-. injection Q' as <-. unfold s, s', on_screen, on_surface. rewrite B. cbn [fst snd]. split; field; lra.
Qed.
Print Assumptions C109_scale_always_agrees_refuted.

(** Whole map in view (world bounds).  On a screen that is not higher than wide the map is
    drawn at most half a metre and a pixel away from the shapes, above or to the left of
    them; on a higher one it is further up by the difference of height and width. *)
Theorem C109_whole_map_under_shapes : forall g m roads p q,
  g_bounds g = true -> 0 < g_w g -> 0 < g_h g ->
  let v := range_of_box (m_min m, m_max m) in
  first_map g roads v = Some m ->
  fst (m_min m) <= fst (m_max m) -> snd (m_min m) <= snd (m_max m) ->
  (fst (m_min m) < fst (m_max m) \/ snd (m_min m) < snd (m_max m)) ->
  map_on_screen g m v p = Some q ->
  let s := on_screen g m v p in
  0 <= fst s - fst q <= m_ratio m / 2 + 1 /\
  let up := if Qle_bool (g_w g) (g_h g) then g_h g - g_w g else 0 in
  up <= snd s - snd q <= up + m_ratio m / 2 + 1.
Proof.
  intros g m roads p q B W H v F LX LY NE Q s.
  unfold first_map in F. destruct roads as [|r0 roads]; [discriminate|]. destruct (lanes_box (concat (r0 :: roads))) as [[lo hi]|]; [|discriminate].
  rewrite B in F. cbn [fst snd] in F.
  remember (Qmin2 (g_w g / (snd (fst v) - fst (fst v))) (g_h g / (snd (snd v) - fst (snd v)))) as r eqn:Er.
  assert (Em : m_ratio m = r) by exact (f_equal (fun o => match o with Some z => m_ratio z | None => 0 end) (eq_sym F)).
  unfold map_on_screen, map_part in Q. rewrite B in Q. change (around 0) with 0 in Q. cbn [fst snd] in Q.
  destruct (within 0 _ _ && within 0 _ _)%bool in Q; [|discriminate]. injection Q as <-.
  unfold s, on_screen. rewrite B. cbn [fst snd]. unfold map_dest. rewrite B. unfold on_surface. cbn [fst snd]. rewrite Em.
  assert (UP : (if Qle_bool (g_w g) (g_h g) then g_h g - g_w g else 0) == g_h g - Qmin2 (g_w g) (g_h g)) by (unfold Qmin2; destruct (Qle_bool (g_w g) (g_h g)); ring).
  set (up := if Qle_bool (g_w g) (g_h g) then g_h g - g_w g else 0) in *.
  assert (W0 : 0 < Qmin2 (g_w g) (g_h g)) by (destruct (Qmin2_cases (g_w g) (g_h g)) as [[-> _]|[-> _]]; assumption).
  clear F s. unfold v in *. unfold range_of_box in *. cbn [fst snd] in *.
  set (x0 := fst (m_min m)) in *. set (x1 := fst (m_max m)) in *. set (y0 := snd (m_min m)) in *. set (y1 := snd (m_max m)) in *.
  set (x := fst p). set (y := snd p).
  assert (AX : Qabs' (x1 - x0) = x1 - x0). { unfold Qabs', Qltb. destruct (Qle_bool 0 (x1 - x0)) eqn:E; [reflexivity|]. exfalso.
    assert (~ 0 <= x1 - x0) by (rewrite <- Qle_bool_iff; congruence). lra. }
  assert (AY : Qabs' (y1 - y0) = y1 - y0). { unfold Qabs', Qltb. destruct (Qle_bool 0 (y1 - y0)) eqn:E; [reflexivity|]. exfalso.
    assert (~ 0 <= y1 - y0) by (rewrite <- Qle_bool_iff; congruence). lra. }
  rewrite AX, AY in *. set (dx := x1 - x0) in *. set (dy := y1 - y0) in *.
  set (w := g_w g) in *. set (hh := g_h g) in *.
  assert (RR : forall a b l, a == l -> b == l -> 0 < l -> Qmin2 (w / a) (hh / b) * l == Qmin2 w hh).
  { intros a b l Ha Hb L. assert (Wl : w / a * l == w) by (rewrite Ha; field; lra). assert (Hl : hh / b * l == hh) by (rewrite Hb; field; lra).
    remember (w / a) as u eqn:Hu. remember (hh / b) as t eqn:Ht. clear Hu Ht.
    destruct (Qmin2_cases u t) as [[-> C]|[-> C]]; destruct (Qmin2_cases w hh) as [[-> D]|[-> D]]; try assumption; nra. }
  set (w0 := Qmin2 w hh) in *.
  unfold Qltb in *. destruct (Qle_bool dx dy) eqn:E1; cbn [negb fst snd] in *.
  - (* dx <= dy *)
    apply Qle_bool_iff in E1. assert (PD : 0 < dy) by (unfold dx, dy in *; destruct NE; lra).
    assert (R1 : r * dy == w0).
    { rewrite Er. apply RR; [unfold dx, dy; field|reflexivity|assumption]. }
    assert (RP : 0 < r) by (apply (Qmult_lt_r 0 r dy PD); rewrite R1; lra).
    destruct (Qle_bool dy dx) eqn:E2; cbn [negb fst snd].
    + apply Qle_bool_iff in E2. change (inject_Z (Qfloor 0)) with 0. assert (D : dx == dy) by lra. clear Er E1 E2.
      assert (G1 : (x - (x0 - (dy - dx) / 2)) * 1 * r + 0 - (0 + ((x - x0) * 1 * r - 0)) == (dy - dx) * r * (1 # 2)) by field.
      assert (G2 : hh + (y - y0) * - (1) * r - (0 + ((y - y1) * - (1) * r - 0)) == up) by (rewrite UP, <- R1; unfold dy; ring).
      assert (G3 : (dy - dx) * r == 0) by (rewrite D; ring). assert (H3 : r / 2 == r * (1 # 2)) by field. rewrite H3.
      split; split; lra.
    + change (inject_Z (Qfloor 0)) with 0. pose proof (floor_le (dy - dx)) as F1. pose proof (floor_lt (dy - dx)) as F2.
      set (f := inject_Z (Qfloor (dy - dx))) in *. pose proof (floor_le (f / 2 * r)) as G1. pose proof (floor_lt (f / 2 * r)) as G2.
      set (gg := inject_Z (Qfloor (f / 2 * r))) in *. clear Er.
      assert (H1 : (dy - dx) / 2 * r == (dy - dx) * r * (1 # 2)) by field. assert (H2 : f / 2 * r == f * r * (1 # 2)) by field.
      assert (H3 : r / 2 == r * (1 # 2)) by field. rewrite H2 in *. rewrite H3.
      assert (K1 : f * r <= (dy - dx) * r) by (apply Qmult_le_compat_r; lra).
      assert (K2 : (dy - dx) * r <= (f + 1) * r) by (apply Qmult_le_compat_r; lra).
      assert (H4 : (x - (x0 - (dy - dx) / 2)) * 1 * r == (x - x0) * r + (dy - dx) * r * (1 # 2)) by field.
      assert (H5 : hh + (y - y0) * - (1) * r - (0 + ((y - y1) * - (1) * r - 0)) == up) by (rewrite UP, <- R1; unfold dy; ring).
      split; split; try (rewrite H4; lra); rewrite H5; lra.
  - (* dy < dx *)
    assert (N : ~ dx <= dy) by (rewrite <- Qle_bool_iff; congruence). assert (PD : 0 < dx) by (unfold dx, dy in *; lra).
    assert (R1 : r * dx == w0).
    { rewrite Er. apply RR; [reflexivity|unfold dx, dy; field|assumption]. }
    assert (RP : 0 < r) by (apply (Qmult_lt_r 0 r dx PD); rewrite R1; lra).
    change (inject_Z (Qfloor 0)) with 0. pose proof (floor_le (dx - dy)) as F1. pose proof (floor_lt (dx - dy)) as F2.
    set (f := inject_Z (Qfloor (dx - dy))) in *. pose proof (floor_le (f / 2 * r)) as G1. pose proof (floor_lt (f / 2 * r)) as G2.
    set (gg := inject_Z (Qfloor (f / 2 * r))) in *. clear Er.
    assert (H2 : f / 2 * r == f * r * (1 # 2)) by field.
    assert (H3 : r / 2 == r * (1 # 2)) by field. rewrite H2 in *. rewrite H3.
    assert (K1 : f * r <= (dx - dy) * r) by (apply Qmult_le_compat_r; lra).
    assert (K2 : (dx - dy) * r <= (f + 1) * r) by (apply Qmult_le_compat_r; lra).
    assert (H4 : hh + (y - (y0 - (dx - dy) / 2)) * - (1) * r - (gg + ((y - y1) * - (1) * r - 0)) == up + ((dx - dy) * r * (1 # 2) - gg)).
    { rewrite UP, <- R1. unfold dy. field. }
    assert (H5 : 0 + (x - x0) * 1 * r - (0 + ((x - x0) * 1 * r - 0)) == 0) by ring.
    split; split; try (rewrite H5; lra); rewrite H4; lra.
Qed.
Print Assumptions C109_whole_map_under_shapes.

(** Following an agent while world bounds are on (the default setting): the agent stays in the
    middle of the screen and the map does not move. *)
Theorem C109_map_scrolls_with_followed_agent_refuted : forall g m c mid old p,
  g_bounds g = true -> enforce_x c = true -> enforce_y c = false ->
  let v := range_around c 1 mid old in
  fst (on_screen g m v mid) == x_length c / 2 * m_ratio m /\
  snd (on_screen g m v mid) == g_h g - x_length c / 2 * m_ratio m /\
  (forall v', map_on_screen g m v p = map_on_screen g m v' p).
Proof.
  intros g m c mid old p B EX EY v. unfold v, on_screen, range_around. rewrite B, EX, EY. cbn [fst snd].
  split; [field|]. split; [field|]. intros v'. unfold map_on_screen, map_part. now rewrite B.
Qed.
Print Assumptions C109_map_scrolls_with_followed_agent_refuted.

(** The box of the lanes is the smallest one with all their points; the first picture of a map
    without roads, or without lanes, fails. *)
Lemma Qmin2_le a b : Qmin2 a b <= a /\ Qmin2 a b <= b.
Proof. destruct (Qmin2_cases a b) as [[-> H]|[-> H]]; lra. Qed.
Lemma Qmax2_ge a b : a <= Qmax2 a b /\ b <= Qmax2 a b.
Proof. destruct (Qmax2_cases a b) as [[-> H]|[-> H]]; lra. Qed.
Definition in_box (b : qpt * qpt) (p : qpt) : Prop :=
  fst (fst b) <= fst p <= fst (snd b) /\ snd (fst b) <= snd p <= snd (snd b).
Lemma fold_box : forall l b, (forall p, in_box b p \/ In p l -> in_box (fold_left box_add l b) p) /\
  (forall b', (forall p, in_box b p -> in_box b' p) -> in_box b (fst b) -> in_box b (snd b) -> Forall (in_box b') l ->
     in_box b' (fst (fold_left box_add l b)) /\ in_box b' (snd (fold_left box_add l b))).
Proof.
  induction l as [|x l IH]; intros b; cbn [fold_left].
  - split; [intros p [H|[]]; exact H|]. intros b' H A1 A2 _. split; apply H; assumption.
  - destruct (IH (box_add b x)) as [I1 I2]. split.
    + intros p [H|[->|H]]; apply I1; [left|left|now right].
      * unfold in_box, box_add in *. cbn [fst snd]. destruct H as [[H1 H2] [H3 H4]].
        pose proof (Qmin2_le (fst (fst b)) (fst x)). pose proof (Qmin2_le (snd (fst b)) (snd x)).
        pose proof (Qmax2_ge (fst (snd b)) (fst x)). pose proof (Qmax2_ge (snd (snd b)) (snd x)). lra.
      * unfold in_box, box_add. cbn [fst snd].
        pose proof (Qmin2_le (fst (fst b)) (fst p)). pose proof (Qmin2_le (snd (fst b)) (snd p)).
        pose proof (Qmax2_ge (fst (snd b)) (fst p)). pose proof (Qmax2_ge (snd (snd b)) (snd p)). lra.
    + intros b' H A1 A2 F. inversion F as [|? ? F1 F2]; subst.
      pose proof (H _ A1) as B1. pose proof (H _ A2) as B2.
      assert (C1 : in_box (box_add b x) (fst (box_add b x))).
      { unfold in_box, box_add in *. cbn [fst snd] in *.
        pose proof (Qmin2_le (fst (fst b)) (fst x)). pose proof (Qmin2_le (snd (fst b)) (snd x)).
        pose proof (Qmax2_ge (fst (snd b)) (fst x)). pose proof (Qmax2_ge (snd (snd b)) (snd x)). lra. }
      assert (C2 : in_box (box_add b x) (snd (box_add b x))).
      { unfold in_box, box_add in *. cbn [fst snd] in *.
        pose proof (Qmin2_le (fst (fst b)) (fst x)). pose proof (Qmin2_le (snd (fst b)) (snd x)).
        pose proof (Qmax2_ge (fst (snd b)) (fst x)). pose proof (Qmax2_ge (snd (snd b)) (snd x)). lra. }
      apply I2; [|exact C1|exact C2|exact F2].
      intros p P. unfold in_box, box_add in P. cbn [fst snd] in P. unfold in_box in *. cbn [fst snd] in *.
      destruct (Qmin2_cases (fst (fst b)) (fst x)) as [[E1 L1]|[E1 L1]]; destruct (Qmin2_cases (snd (fst b)) (snd x)) as [[E2 L2]|[E2 L2]];
      destruct (Qmax2_cases (fst (snd b)) (fst x)) as [[E3 L3]|[E3 L3]]; destruct (Qmax2_cases (snd (snd b)) (snd x)) as [[E4 L4]|[E4 L4]];
      rewrite E1, E2, E3, E4 in P; lra.
Qed.
Theorem C109_map_box : forall g roads v,
  (concat (concat roads) = [] -> first_map g roads v = None) /\
  (forall m, first_map g roads v = Some m ->
     Forall (in_box (m_min m, m_max m)) (concat (concat roads)) /\
     forall b, Forall (in_box b) (concat (concat roads)) -> in_box b (m_min m) /\ in_box b (m_max m)).
Proof.
  intros g roads v. unfold first_map, lanes_box. split.
  - intros E. destruct roads as [|r0 roads]; [reflexivity|]. now rewrite E.
  - intros m. destruct roads as [|r0 roads]; [discriminate|]. set (l := concat (concat (r0 :: roads))).
    destruct l as [|p l]; [discriminate|]. destruct (fold_left box_add l (p, p)) as [lo hi] eqn:E. intros H. injection H as <-. cbn [m_min m_max].
    destruct (fold_box l (p, p)) as [I1 I2]. rewrite E in I1, I2. cbn [fst snd] in *.
    assert (P : in_box (p, p) p) by (unfold in_box; cbn; lra). split.
    + constructor; [apply I1; now left|]. apply Forall_forall. intros x X. apply I1. now right.
    + intros b F. inversion F as [|? ? F1 F2]; subst. apply I2; [|exact P|exact P|exact F2].
      intros x X. unfold in_box in *. cbn [fst snd] in *. lra.
Qed.
Print Assumptions C109_map_box.

(* ---- the hypotheses are met ---- *)
Definition ex_cam : camera := init_camera no_opts no_opts.
Definition ex_roads : list (list (list qpt)) := [[[(-(10#1), 0); (90#1, 0)]; [(-(10#1), -(4#1)); (90#1, -(4#1))]]].
Definition ex_scroll : pygame := mkPygame (600#1) (600#1) false (-(40#1), 40#1) (-(40#1), 40#1).
Definition ex_view : view := range_around ex_cam 1 (10#1, 0) ((0, 0), (0, 0)).
Example C109_scroll_nonvacuous : exists m, first_map ex_scroll ex_roads ex_view = Some m /\
  x_length ex_cam == 80 /\ enforce_x ex_cam = true /\ enforce_y ex_cam = false /\
  m_ratio m * fst (m_view m) == 600 /\ m_ratio m * snd (m_view m) == 600 /\
  (exists q, map_on_screen ex_scroll m ex_view (30#1, -(4#1)) = Some q /\ fst q == 450 /\ snd q == 330) /\
  fst (on_screen ex_scroll m ex_view (30#1, -(4#1))) == 450 /\ snd (on_screen ex_scroll m ex_view (30#1, -(4#1))) == 330.
Proof.
  eexists. split; [vm_compute; reflexivity|]. repeat (split; [vm_compute; reflexivity|]).
  split; [eexists; split; [vm_compute; reflexivity|]; split; vm_compute; reflexivity|]. split; vm_compute; reflexivity.
Qed.
(** y_range = [10, 80]: the visible length is 90, the smaller range 70; at 60 m from the
    upper left corner of the view the map is off by more than 100 pixels. *)
Definition ex_odd : pygame := mkPygame (600#1) (600#1) false (-(100#1), 100#1) (10#1, 80#1).
Example C109_scale_refuted_nonvacuous : exists m, let c := init_camera (mkCO (Some false) None None (Some (-(100#1), 100#1)) (Some (10#1, 80#1)) None None None None) no_opts in
  let v := range_around c 1 (10#1, 0) ((0, 0), (0, 0)) in
  first_map ex_odd ex_roads v = Some m /\ x_length c == 90 /\
  (exists q, map_on_screen ex_odd m v (25#1, 0) = Some q /\ fst q == 514) /\ fst (on_screen ex_odd m v (25#1, 0)) == 400.
Proof.
  eexists. cbv zeta. split; [vm_compute; reflexivity|]. split; [vm_compute; reflexivity|].
  split; [eexists; split; [vm_compute; reflexivity|]|]; vm_compute; reflexivity.
Qed.
Definition ex_whole (h : Q) : pygame := mkPygame (600#1) h true (-(40#1), 40#1) (-(40#1), 40#1).
Definition ex_mapped : mapped := mkMapped (-(10#1), -(4#1)) (90#1, 0) (100#1, 100#1) 6.
Example C109_whole_nonvacuous :
  (let v := range_of_box (m_min ex_mapped, m_max ex_mapped) in
   exists m, first_map (ex_whole (600#1)) ex_roads v = Some m /\ m_min m = m_min ex_mapped /\ m_max m = m_max ex_mapped /\ m_ratio m == 6 /\
   (exists q, map_on_screen (ex_whole (600#1)) m v (30#1, -(4#1)) = Some q /\ fst q == 240 /\ snd q == 312) /\
   fst (on_screen (ex_whole (600#1)) m v (30#1, -(4#1))) == 240 /\ snd (on_screen (ex_whole (600#1)) m v (30#1, -(4#1))) == 312 /\
   (exists q, map_on_screen (ex_whole (900#1)) m v (30#1, -(4#1)) = Some q /\ snd q == 312) /\
   snd (on_screen (ex_whole (900#1)) m v (30#1, -(4#1))) == 612).
Proof.
  cbv zeta. eexists. split; [vm_compute; reflexivity|]. split; [vm_compute; reflexivity|]. split; [vm_compute; reflexivity|].
  split; [vm_compute; reflexivity|]. split; [eexists; split; [vm_compute; reflexivity|]; split; vm_compute; reflexivity|].
  split; [vm_compute; reflexivity|]. split; [vm_compute; reflexivity|].
  split; [eexists; split; [vm_compute; reflexivity|]|]; vm_compute; reflexivity.
Qed.

(* ------------------------------------------------------------------ *)
(** * C110 *)

(** Shapes of one alpha, in the order drawn. *)
Definition shapes_of (a : Z) (calls : list (what * Z)) : list what :=
  concat (map (fun c => match fst c with
                        | WShape k => if Z.eqb a (snd c) then [WShape k] else []
                        | WLine k true => if Z.eqb a (snd c) then [WLine k true] else []
                        | _ => [] end) calls).
Definition transparent (c : what * Z) : bool := match fst c with WShape _ => true | WLine _ _ => true | _ => false end.
(** What goes to the screen directly. *)
Definition direct (calls : list (what * Z)) : list what :=
  concat (map (fun c => match fst c with WMap => [WMap] | WTrajectory k => [WTrajectory k] | _ => [] end) calls).
(** The alphas in the order of their first use, after those [known] before. *)
Fixpoint first_use (known : list Z) (calls : list (what * Z)) : list Z :=
  match calls with
  | [] => known
  | c :: r => first_use (if transparent c && negb (existsb (Z.eqb (snd c)) known) then known ++ [snd c] else known) r
  end.

Lemma on_alpha_keys a x l : map fst (on_alpha a x l) = if existsb (Z.eqb a) (map fst l) then map fst l else map fst l ++ [a].
Proof.
  induction l as [|[b y] l IH]; cbn; [reflexivity|]. destruct (Z.eqb_spec a b) as [->|N]; cbn; [reflexivity|].
  rewrite IH. now destruct (existsb (Z.eqb a) (map fst l)).
Qed.
Definition at_alpha (a : Z) (l : list (Z * list what)) : list what :=
  concat (map snd (filter (fun p => Z.eqb a (fst p)) l)).
Lemma filter_none a (l : list (Z * list what)) : ~ In a (map fst l) -> filter (fun p => Z.eqb a (fst p)) l = [].
Proof.
  induction l as [|[b y] l IH]; intros N; cbn in *; [reflexivity|]. destruct (Z.eqb_spec a b) as [->|]; [exfalso; apply N; now left|].
  apply IH. tauto.
Qed.
Lemma on_alpha_at b a x l : NoDup (map fst l) -> at_alpha b (on_alpha a x l) = at_alpha b l ++ (if Z.eqb b a then x else []).
Proof.
  unfold at_alpha. induction l as [|[c y] l IH]; intros ND; cbn.
  - destruct (Z.eqb b a); cbn; now rewrite ?app_nil_r.
  - inversion ND as [|? ? N1 N2]; subst. destruct (Z.eqb_spec a c) as [->|Nac]; cbn.
    + destruct (Z.eqb_spec b c) as [->|Nbc]; cbn; [|now rewrite app_nil_r]. rewrite (filter_none c l N1). cbn. now rewrite !app_nil_r.
    + destruct (Z.eqb_spec b c) as [->|Nbc]; cbn; [|now apply IH]. rewrite (IH N2).
      destruct (Z.eqb_spec c a) as [->|]; [congruence|]. now rewrite !app_nil_r.
Qed.
Lemma NoDup_keys a x l : NoDup (map fst l) -> NoDup (map fst (on_alpha a x l)).
Proof.
  intros ND. rewrite on_alpha_keys. destruct (existsb (Z.eqb a) (map fst l)) eqn:E; [assumption|].
  assert (~ In a (map fst l)) as N.
  { intros I. assert (existsb (Z.eqb a) (map fst l) = true); [|congruence]. apply existsb_exists. exists a. split; [assumption|apply Z.eqb_refl]. }
  clear E. induction (map fst l) as [|b r IH]; cbn; [repeat constructor; intros []|]. inversion ND; subst. constructor.
  - rewrite in_app_iff. cbn. intros [I|[->|[]]]; [contradiction|apply N; now left].
  - apply IH; [assumption|]. intros I. apply N. now right.
Qed.

Lemma draw_calls : forall calls s, NoDup (map fst (l_alpha s)) ->
  let s' := fold_left draw1 calls s in
  l_base s' = l_base s ++ direct calls /\ map fst (l_alpha s') = first_use (map fst (l_alpha s)) calls /\ NoDup (map fst (l_alpha s')) /\
  forall a, at_alpha a (l_alpha s') = at_alpha a (l_alpha s) ++ shapes_of a calls.
Proof.
  induction calls as [|[x al] calls IH]; intros s ND; cbn [fold_left].
  - cbn. rewrite app_nil_r. repeat (split; [reflexivity || assumption|]). intros a. unfold shapes_of. cbn. now rewrite app_nil_r.
  - cbv zeta.
    assert (NoDup (map fst (l_alpha (draw1 s (x, al))))) as ND1 by (unfold draw1; destruct x; cbn; [assumption|assumption|now apply NoDup_keys|now apply NoDup_keys]).
    destruct (IH (draw1 s (x, al)) ND1) as (A & B & C & D). split; [|split; [|split]].
    + rewrite A. unfold direct. destruct x; cbn; rewrite <- ?app_assoc; reflexivity.
    + rewrite B. unfold draw1. destruct x; cbn [fst l_alpha first_use transparent andb snd]; try reflexivity; rewrite on_alpha_keys;
      destruct (existsb (Z.eqb al) (map fst (l_alpha s))); reflexivity.
    + exact C.
    + intros a. rewrite D. unfold shapes_of. cbn [map concat fst snd]. unfold draw1. destruct x; cbn [fst l_alpha snd]; try reflexivity.
      * rewrite on_alpha_at by assumption. now rewrite <- app_assoc.
      * rewrite on_alpha_at by assumption. rewrite <- app_assoc. destruct dashed; [reflexivity|]. now destruct (Z.eqb a al).
Qed.
Lemma layers_by_key : forall l : list (Z * list what), NoDup (map fst l) -> concat (map snd l) = concat (map (fun a => at_alpha a l) (map fst l)).
Proof.
  intros l ND. f_equal. rewrite map_map. assert (forall l2, incl l2 l -> map snd l2 = map (fun x => at_alpha (fst x) l) l2) as X; [|apply X, incl_refl].
  induction l2 as [|[a y] l2 IH]; intros I; cbn; [reflexivity|]. f_equal; [|apply IH; intros z Z; apply I; now right].
  assert (In (a, y) l) as J by (apply I; now left). clear - ND J. unfold at_alpha. induction l as [|[b z] l IH]; [destruct J|].
  cbn in *. inversion ND as [|? ? N1 N2]; subst. destruct J as [J|J].
  - injection J as <- <-. rewrite Z.eqb_refl. cbn. rewrite (filter_none b l N1). cbn. now rewrite app_nil_r.
  - destruct (Z.eqb_spec a b) as [->|N]; [|now apply IH]. exfalso. apply N1. apply in_map_iff. now exists (b, y).
Qed.

(** A picture after clearing: map and trajectories at the bottom, then one layer per alpha
    with the shapes and dashed lines of that alpha in the order drawn; the layers lie in the
    order in which the alphas were first used since the viewer exists. *)
Theorem C110_layers : forall s calls, NoDup (map fst (l_alpha s)) ->
  let s0 := fst (clear true s) in
  let known := map fst (l_alpha s) in
  l_base (draw_frame s0 calls) = direct calls ++ concat (map (fun a => shapes_of a calls) (first_use known calls)) /\
  map fst (l_alpha (draw_frame s0 calls)) = first_use known calls /\ NoDup (map fst (l_alpha (draw_frame s0 calls))).
Proof.
  intros s calls ND s0 known. set (a0 := map (fun p : Z * list what => (fst p, [] : list what)) (l_alpha s)).
  assert (K : map fst a0 = known) by (unfold a0; rewrite map_map; reflexivity).
  assert (E : forall a, at_alpha a a0 = []).
  { intros a. unfold at_alpha, a0. generalize (l_alpha s). induction l as [|[b y] l IH]; [reflexivity|]. cbn. destruct (Z.eqb a b); cbn; assumption. }
  assert (ND0 : NoDup (map fst (l_alpha s0))) by (change (l_alpha s0) with a0; rewrite K; assumption).
  destruct (draw_calls calls s0 ND0) as (A & B & C & D). change (l_base s0) with (@nil what) in A. change (l_alpha s0) with a0 in B, D. rewrite K in B.
  unfold draw_frame. cbn [l_base l_alpha]. split; [|split; [exact B|exact C]]. rewrite A. cbn [app]. f_equal.
  rewrite (layers_by_key _ C), B. f_equal. apply map_ext. intros a. rewrite D, E. reflexivity.
Qed.
Print Assumptions C110_layers.

(** Hence with a fixed alpha for the evaluated agents and another one for the others, which
    of them covers the other is decided by the very first picture, whatever is drawn later. *)
Theorem C110_order_never_changes : forall frames s, NoDup (map fst (l_alpha s)) ->
  let s' := fold_left (fun s calls => draw_frame (fst (clear true s)) calls) frames s in
  exists more, map fst (l_alpha s') = map fst (l_alpha s) ++ more.
Proof.
  assert (F : forall calls known, exists more, first_use known calls = known ++ more).
  { induction calls as [|c calls IH]; intros known; cbn; [exists []; now rewrite app_nil_r|].
    destruct (transparent c && negb (existsb (Z.eqb (snd c)) known))%bool; [|apply IH].
    destruct (IH (known ++ [snd c])) as (m & ->). exists (snd c :: m). now rewrite <- app_assoc. }
  induction frames as [|calls frames IH]; intros s ND; cbn [fold_left]; [exists []; now rewrite app_nil_r|].
  destruct (C110_layers s calls ND) as (_ & K & ND'). destruct (IH _ ND') as (m & E). destruct (F calls (map fst (l_alpha s))) as (m2 & E2).
  cbv zeta. rewrite E, K, E2. exists (m2 ++ m). now rewrite app_assoc.
Qed.
Print Assumptions C110_order_never_changes.

(** Without clearing, the shapes of earlier pictures are drawn again in every later one. *)
Theorem C110_without_clearing_everything_stays : forall frames s a x, NoDup (map fst (l_alpha s)) -> In x (at_alpha a (l_alpha s)) ->
  let s' := fold_left draw_frame frames s in In x (at_alpha a (l_alpha s')).
Proof.
  induction frames as [|calls frames IH]; intros s a x ND I; cbn [fold_left]; [exact I|].
  destruct (draw_calls calls s ND) as (_ & _ & C & D). apply IH; unfold draw_frame; cbn [l_alpha]; [exact C|]. rewrite D. apply in_or_app. now left.
Qed.
Print Assumptions C110_without_clearing_everything_stays.

(** A line that is not dashed is never drawn. *)
Theorem C110_lines_are_drawn_refuted : forall s k a, l_base (draw1 s (WLine k false, a)) = l_base s /\
  (NoDup (map fst (l_alpha s)) -> forall b, at_alpha b (l_alpha (draw1 s (WLine k false, a))) = at_alpha b (l_alpha s)).
Proof.
  intros s k a. split; [reflexivity|]. intros ND b. unfold draw1; cbn [fst snd l_alpha]. rewrite on_alpha_at by assumption. destruct (Z.eqb b a); now rewrite app_nil_r.
Qed.
Print Assumptions C110_lines_are_drawn_refuted.

(** Without a video device clear raises, after emptying the layers of the shapes and before
    emptying the screen. *)
Theorem C110_clear_without_screen_refuted : forall s, snd (clear false s) = false /\ snd (clear true s) = true /\
  l_base (fst (clear false s)) = l_base s /\ l_base (fst (clear true s)) = [] /\
  forall b, Forall (fun p => snd p = []) (l_alpha (fst (clear b s))) /\ map fst (l_alpha (fst (clear b s))) = map fst (l_alpha s).
Proof.
  intros s. repeat (split; [reflexivity|]). intros b.
  assert (l_alpha (fst (clear b s)) = map (fun p : Z * list what => (fst p, [] : list what)) (l_alpha s)) as -> by now destruct b.
  split; [apply Forall_map, Forall_forall; reflexivity|rewrite map_map; reflexivity].
Qed.
Print Assumptions C110_clear_without_screen_refuted.

(** Colours: components from 0 to 1 always give a colour, 0 none and 1 full of it, more gives
    more; a name outside the list of six is black, and "magenta" is a light green. *)
Lemma Qfloor_mono a b : a <= b -> (Qfloor a <= Qfloor b)%Z.
Proof. apply Qfloor_resp_le. Qed.
Theorem C110_colours : forall q,
  (0 <= q <= 1 -> exists z, channel q = Some z /\ inject_Z z <= q * 255 < inject_Z z + 1) /\
  (q <= - (1 # 255) -> channel q = None) /\ (256 # 255 <= q -> channel q = None) /\
  (forall q' z z', q <= q' -> channel q = Some z -> channel q' = Some z' -> (z <= z')%Z).
Proof.
  intros q. unfold channel.
  assert (T : forall x, 0 <= x -> trunc0 x = Qfloor x) by (intros x X; unfold trunc0; apply Qle_bool_iff in X; now rewrite X).
  assert (TN : forall x, x < 0 -> trunc0 x = (- Qfloor (- x))%Z).
  { intros x X. unfold trunc0. destruct (Qle_bool 0 x) eqn:E; [apply Qle_bool_iff in E; lra|reflexivity]. }
  split; [|split; [|split]].
  - intros [A B]. rewrite T by lra. pose proof (Qfloor_mono 0 (q * 255)) as F0. pose proof (Qfloor_mono (q * 255) 255) as F1.
    change (Qfloor 0) with 0%Z in F0. change (Qfloor 255) with 255%Z in F1.
    assert (0 <= Qfloor (q * 255) <= 255)%Z as R by (split; [apply F0|apply F1]; lra).
    replace ((0 <=? Qfloor (q * 255)) && (Qfloor (q * 255) <=? 255))%Z with true by (symmetry; apply andb_true_iff; split; apply Z.leb_le; lia).
    exists (Qfloor (q * 255)). split; [reflexivity|]. split; [apply floor_le|apply floor_lt].
  - intros A. rewrite TN by lra. pose proof (Qfloor_mono 1 (- (q * 255))) as F. change (Qfloor 1) with 1%Z in F.
    assert (1 <= Qfloor (- (q * 255)))%Z by (apply F; lra).
    replace (0 <=? - Qfloor (- (q * 255)))%Z with false by (symmetry; apply Z.leb_gt; lia). reflexivity.
  - intros A. rewrite T by lra. pose proof (Qfloor_mono 256 (q * 255)) as F. change (Qfloor 256) with 256%Z in F.
    assert (256 <= Qfloor (q * 255))%Z by (apply F; lra).
    replace (Qfloor (q * 255) <=? 255)%Z with false by (symmetry; apply Z.leb_gt; lia). now rewrite andb_false_r.
  - intros q' z z' L. destruct ((0 <=? trunc0 (q * 255)) && _)%Z eqn:E1; [|discriminate]. destruct ((0 <=? trunc0 (q' * 255)) && _)%Z eqn:E2; [|discriminate].
    intros H H'. injection H as <-. injection H' as <-. apply andb_true_iff in E2. destruct E2 as [E2 _]. apply Z.leb_le in E2.
    unfold trunc0 in *. destruct (Qle_bool 0 (q * 255)) eqn:Q1.
    + apply Qle_bool_iff in Q1. assert (0 <= q' * 255) as Q2 by lra. apply Qle_bool_iff in Q2. rewrite Q2 in *. apply Qfloor_mono. lra.
    + assert (~ 0 <= q * 255) as N by (rewrite <- Qle_bool_iff; congruence). pose proof (Qfloor_mono 0 (- (q * 255))) as F. change (Qfloor 0) with 0%Z in F.
      assert (0 <= Qfloor (- (q * 255)))%Z by (apply F; lra). lia.
Qed.
Print Assumptions C110_colours.
Theorem C110_rgb : forall r g b, 
  (0 <= r <= 1 -> 0 <= g <= 1 -> 0 <= b <= 1 ->
   exists zr zg zb, rgb (r, g, b) = Some (zr, zg, zb) /\ inject_Z zr <= r * 255 < inject_Z zr + 1 /\
     inject_Z zg <= g * 255 < inject_Z zg + 1 /\ inject_Z zb <= b * 255 < inject_Z zb + 1) /\
  (256 # 255 <= r \/ 256 # 255 <= g \/ 256 # 255 <= b -> rgb (r, g, b) = None).
Proof.
  intros r g b. unfold rgb. cbn [fst snd]. split.
  - intros A B C. destruct (proj1 (C110_colours r) A) as (zr & -> & Hr). destruct (proj1 (C110_colours g) B) as (zg & -> & Hg).
    destruct (proj1 (C110_colours b) C) as (zb & -> & Hb). exists zr, zg, zb. auto.
  - intros [H|[H|H]]; apply C110_colours in H; rewrite H; repeat match goal with |- context [match channel ?x with _ => _ end] => destruct (channel x) end; reflexivity.
Qed.
Print Assumptions C110_rgb.
Theorem C110_names_mean_their_colour_refuted : forall s,
  (~ In s ["white"; "red"; "blue"; "magenta"; "brown"; "black"]%string -> named s = (0, 0, 0)%Z) /\
  named "white" = (255, 255, 255)%Z /\ named "red" = (255, 0, 0)%Z /\ named "blue" = (0, 0, 255)%Z /\ named "brown" = (150, 50, 50)%Z /\
  named "black" = (0, 0, 0)%Z /\
  named "magenta" = (100, 255, 100)%Z /\ named "green" = named "black" /\ named "gray" = named "black".
Proof.
  intros s. split; [|repeat split]. intros N. unfold named.
  destruct (String.eqb_spec s "white") as [->|_]; [exfalso; apply N; cbn; tauto|].
  destruct (String.eqb_spec s "red") as [->|_]; [exfalso; apply N; cbn; tauto|].
  destruct (String.eqb_spec s "blue") as [->|_]; [exfalso; apply N; cbn; tauto|].
  destruct (String.eqb_spec s "magenta") as [->|_]; [exfalso; apply N; cbn; tauto|].
  destruct (String.eqb_spec s "brown") as [->|_]; [exfalso; apply N; cbn; tauto|].
  now destruct (String.eqb s "black").
Qed.
Print Assumptions C110_names_mean_their_colour_refuted.

(** Dashes: of a segment of length [l] they are the pieces of length 5 that start at 0, 10,
    20, ... before its end; the last one may go up to 5 beyond the end. *)
Theorem C110_dashes : forall l, 0 <= l ->
  (forall a b, In (a, b) (dashes l) <-> exists k : nat, a = inject_Z (2 * Z.of_nat k) * 5 /\ b = a + 5 /\ a < l) /\
  Forall (fun d => 0 <= fst d /\ fst d < l /\ snd d < l + 5) (dashes l).
Proof.
  intros l L. assert (M : forall a b, In (a, b) (dashes l) <-> exists k : nat, a = inject_Z (2 * Z.of_nat k) * 5 /\ b = a + 5 /\ a < l).
  { intros a b. unfold dashes. rewrite in_map_iff. split.
    - intros (k & E & I). apply pair_equal_spec in E. destruct E as [<- <-]. apply in_seq in I. exists k. split; [reflexivity|]. split; [reflexivity|].
      unfold dash_count in I. pose proof (Qceiling_lt (l / 5 / 2)) as C.
      assert (Z.of_nat k <= Qceiling (l / 5 / 2) - 1)%Z as K by lia. rewrite Zle_Qle in K.
      assert (l / 5 / 2 * 10 == l) as E by field. rewrite inject_Z_mult. change (inject_Z 2) with 2. lra.
    - intros (k & -> & -> & Lt). exists k. split; [reflexivity|]. apply in_seq. split; [lia|]. unfold dash_count.
      pose proof (Qle_ceiling (l / 5 / 2)) as C. rewrite inject_Z_mult in Lt. change (inject_Z 2) with 2 in Lt.
      assert (l / 5 / 2 * 10 == l) as E by field. assert (inject_Z (Z.of_nat k) < inject_Z (Qceiling (l / 5 / 2))) as K by lra.
      rewrite <- Zlt_Qlt in K. lia. }
  split; [exact M|]. apply Forall_forall. intros [a b] I. apply M in I. destruct I as (k & -> & -> & Lt). cbn [fst snd].
  split; [|split; [exact Lt|lra]]. rewrite inject_Z_mult. change (inject_Z 2) with 2.
  assert (0 <= inject_Z (Z.of_nat k)) by (change 0 with (inject_Z 0); rewrite <- Zle_Qle; lia). lra.
Qed.
Print Assumptions C110_dashes.

Example C110_nonvacuous :
  let s := mkLayers [] [] in
  let f1 := [(WMap, 100); (WShape 1, 80); (WShape 2, 100); (WTrajectory 7, 100); (WLine 3 false, 50); (WShape 4, 80)]%Z in
  l_base (draw_frame (fst (clear true s)) f1) = [WMap; WTrajectory 7; WShape 1; WShape 4; WShape 2] /\
  l_base (draw_frame (fst (clear true (draw_frame s f1))) [(WShape 2, 100); (WShape 1, 80)]%Z) = [WShape 1; WShape 2] /\
  l_base (draw_frame (draw_frame s [(WShape 1, 80)]%Z) [(WShape 2, 80)]%Z) = [WShape 1; WShape 1; WShape 2] /\
  rgb (7 # 10, 0, 1) = Some (178, 0, 255)%Z /\ map (fun d => (Qred (fst d), Qred (snd d))) (dashes (23 # 1)) = [(0, 5 # 1); (10 # 1, 15 # 1); (20 # 1, 25 # 1)] /\ dashes 0 = [].
Proof. vm_compute. repeat split. Qed.
