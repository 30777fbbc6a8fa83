(* C103: the part of the world a viewer shows. *)
From Coq Require Import List ZArith QArith Qabs NArith Bool Lia Lqa Qminmax.
From Verif Require Import Model_Map Model_Viewer.
Import ListNotations.
Local Open Scope Q_scope.

(* --- specification --- *)
Definition width (v : view) : Q := snd (fst v) - fst (fst v).
Definition height (v : view) : Q := snd (snd v) - fst (snd v).
(* the middle of the view is p *)
Definition centred (v : view) (p : Q * Q) : Prop :=
  fst (fst v) + snd (fst v) == 2 * fst p /\ fst (snd v) + snd (snd v) == 2 * snd p.
Definition shows (v : view) (p : Q * Q) : Prop :=
  fst (fst v) <= fst p <= snd (fst v) /\ fst (snd v) <= snd p <= snd (snd v).
(* the agent whose position is the centre *)
Definition in_world (w : vworld) (i : N) : Prop := exists a, In (i, a) (vw_agents w).
Definition wanted_agent (c : camera) (evals : option (list N)) (i : N) : Prop :=
  follow_id c = FollowId i \/
  exists b, follow_id c = FollowFlag b /\
    (evals = Some [i] \/ (forall j, evals <> Some [j]) /\ i = if b then 1%N else 0%N).

Lemma has_id_iff i l : has_id i l = true <-> In i l.
Proof.
  unfold has_id. rewrite existsb_exists. split; [intros (j & I & E); apply N.eqb_eq in E; now subst|].
  intros I. exists i. split; auto. apply N.eqb_refl.
Qed.
Lemma in_ids w i : In i (agent_ids w) <-> in_world w i.
Proof.
  unfold agent_ids, in_world. rewrite in_map_iff. split.
  - intros ([j a] & <- & I). eauto.
  - intros (a & I). exists (i, a). auto.
Qed.
Lemma Qltb_iff a b : Qltb a b = true <-> a < b.
Proof.
  unfold Qltb. rewrite negb_true_iff. split.
  - intros H. apply Qnot_le_lt. intros L. apply Qle_bool_iff in L. congruence.
  - intros H. destruct (Qle_bool b a) eqn:E; auto. apply Qle_bool_iff in E. lra.
Qed.
Lemma Qltb_false a b : Qltb a b = false <-> b <= a.
Proof. unfold Qltb. rewrite negb_false_iff. apply Qle_bool_iff. Qed.
Lemma abs_diff a b : a <= b -> Qabs' (b - a) == b - a.
Proof. intros H. unfold Qabs'. destruct (Qltb (b - a) 0) eqn:E; [apply Qltb_iff in E; lra|reflexivity]. Qed.

(* who is followed *)
Theorem C103_followed_agent c w evals i : followed c w evals = Some i <-> wanted_agent c evals i /\ in_world w i.
Proof.
  unfold followed, wanted_agent. rewrite <- in_ids, <- has_id_iff.
  assert (E : forall cand, match cand with Some j => if has_id j (agent_ids w) then Some j else None | None => None end = Some i
    <-> cand = Some i /\ has_id i (agent_ids w) = true).
  { intros [j|]; [|split; [discriminate|intros [X _]; discriminate]]. destruct (has_id j (agent_ids w)) eqn:H.
    - split; [intros X; inversion X; subst; auto|intros [X _]; auto].
    - split; [discriminate|]. intros [X Y]. inversion X; subst. congruence. }
  rewrite E. destruct (follow_id c) as [|b|j].
  - split; [intros [X _]; discriminate|]. intros [[X|(b & X & _)] _]; discriminate.
  - split.
    + intros [X H]. split; auto. right. exists b. split; auto.
      destruct evals as [[|j [|k r]]|].
      * right. split; [intros j Y; discriminate|congruence].
      * left. congruence.
      * right. split; [intros l Y; discriminate|congruence].
      * right. split; [intros l Y; discriminate|congruence].
    + intros [[X|(b' & X & Y)] H]; [discriminate|]. inversion X; subst b'. split; auto.
      destruct Y as [->|(N & ->)]; [reflexivity|]. destruct evals as [[|j [|k r]]|]; auto. exfalso. now apply (N j).
  - split; [intros [X H]; split; auto; left; congruence|]. intros [[X|(b & X & _)] H]; [split; congruence|discriminate].
Qed.

(* the whole map: the smallest square around the bounding box *)
Theorem C103_world_bounds c ratio w evals old x0 y0 x1 y1 :
  (forall i, ~ (wanted_agent c evals i /\ in_world w i)) -> use_world_bounds c = true ->
  vw_box w = ((x0, y0), (x1, y1)) -> x0 <= x1 -> y0 <= y1 ->
  let v := update_view c ratio w evals old in
  width v == Qmax (x1 - x0) (y1 - y0) /\ height v == Qmax (x1 - x0) (y1 - y0) /\
  centred v ((x0 + x1) / 2, (y0 + y1) / 2) /\
  (forall p, x0 <= fst p <= x1 -> y0 <= snd p <= y1 -> shows v p).
Proof.
  intros N B E Hx Hy. unfold update_view.
  destruct (followed c w evals) as [i|] eqn:F; [exfalso; apply (N i); now apply C103_followed_agent in F|].
  rewrite B, E. unfold range_of_box. cbn [fst snd]. cbv zeta. unfold width, height, centred, shows.
  pose proof (abs_diff x0 x1 Hx) as Ax. pose proof (abs_diff y0 y1 Hy) as Ay.
  destruct (Qltb (Qabs' (y1 - y0)) (Qabs' (x1 - x0))) eqn:L; cbn [fst snd].
  - apply Qltb_iff in L. assert (M : Qmax (x1 - x0) (y1 - y0) == x1 - x0) by (apply Q.max_l; lra).
    assert (H2 : forall z, 2 * (z / 2) == z) by (intros z; field).
    pose proof (H2 (x0 + x1)) as C1. pose proof (H2 (y0 + y1)) as C2.
    pose proof (H2 (Qabs' (x1 - x0) - Qabs' (y1 - y0))) as C3.
    remember ((x0 + x1) / 2) as cx. remember ((y0 + y1) / 2) as cy. remember ((Qabs' (x1 - x0) - Qabs' (y1 - y0)) / 2) as e.
    remember (Qmax (x1 - x0) (y1 - y0)) as mx. clear Heqcx Heqcy Heqe Heqmx H2.
    repeat split; lra.
  - apply Qltb_false in L. assert (M : Qmax (x1 - x0) (y1 - y0) == y1 - y0) by (apply Q.max_r; lra).
    assert (H2 : forall z, 2 * (z / 2) == z) by (intros z; field).
    pose proof (H2 (x0 + x1)) as C1. pose proof (H2 (y0 + y1)) as C2.
    pose proof (H2 (Qabs' (y1 - y0) - Qabs' (x1 - x0))) as C3.
    remember ((x0 + x1) / 2) as cx. remember ((y0 + y1) / 2) as cy. remember ((Qabs' (y1 - y0) - Qabs' (x1 - x0)) / 2) as e.
    remember (Qmax (x1 - x0) (y1 - y0)) as mx. clear Heqcx Heqcy Heqe Heqmx H2.
    repeat split; lra.
Qed.

(* around a point: of the given length in the enforced direction, of the shape of the window *)
Definition view_around (c : camera) (ratio : Q) (p : Q * Q) (old v : view) : Prop :=
  (enforce_y c = true -> centred v p /\ height v == y_length c /\ width v == y_length c * ratio) /\
  (enforce_y c = false -> enforce_x c = true -> centred v p /\ width v == x_length c /\ height v * ratio == x_length c) /\
  (enforce_y c = false -> enforce_x c = false -> v = old).
Lemma range_around_ok c ratio p old : 0 < ratio -> view_around c ratio p old (range_around c ratio p old).
Proof.
  intros Hr. assert (Nr : ~ ratio == 0) by lra. unfold view_around, range_around. destruct (enforce_y c); cbv zeta.
  - split; [|split; discriminate]. intros _. unfold centred, width, height. cbn [fst snd]. repeat split; field.
  - split; [discriminate|]. destruct (enforce_x c).
    + split; [|discriminate]. intros _ _. unfold centred, width, height. cbn [fst snd]. repeat split; field; auto.
    + split; [discriminate|auto].
Qed.
Theorem C103_follows_the_agent c ratio w evals old i a : 0 < ratio -> NoDup (agent_ids w) ->
  wanted_agent c evals i -> In (i, a) (vw_agents w) ->
  (forall j, wanted_agent c evals j -> j = i) /\
  view_around c ratio (va_pos a) old (update_view c ratio w evals old).
Proof.
  intros Hr ND W I. assert (Uq : forall j, wanted_agent c evals j -> j = i).
  { intros j Wj. destruct W as [E|(b & E & X)], Wj as [E'|(b' & E' & X')]; try congruence.
    assert (b' = b) by congruence. subst. destruct X as [->|(N & ->)], X' as [Y|(N' & ->)]; try congruence.
    exfalso. now apply (N' i). }
  split; auto. unfold update_view.
  assert (F : followed c w evals = Some i) by (apply C103_followed_agent; split; auto; now exists a).
  rewrite F. assert (L : lookup i (vw_agents w) = Some a).
  { unfold agent_ids in ND. clear - ND I. induction (vw_agents w) as [|[j b] l IH]; [destruct I|]. cbn [lookup].
    cbn [map fst] in ND. inversion ND as [|? ? Ni ND']; subst. destruct (N.eqb_spec i j) as [->|Ne].
    - destruct I as [I|I]; [congruence|]. exfalso. apply Ni. apply in_map_iff. exists (j, a). auto.
    - destruct I as [I|I]; [congruence|]. auto. }
  rewrite L. now apply range_around_ok.
Qed.
Theorem C103_fixed_centre c ratio w evals old : 0 < ratio ->
  (forall i, ~ (wanted_agent c evals i /\ in_world w i)) -> use_world_bounds c = false ->
  view_around c ratio (center c) old (update_view c ratio w evals old).
Proof.
  intros Hr N B. unfold update_view.
  destruct (followed c w evals) as [i|] eqn:F; [exfalso; apply (N i); now apply C103_followed_agent in F|].
  rewrite B. now apply range_around_ok.
Qed.

(* options: keyword, else parameter, else default *)
Definition chosen {A} (kw p : option A) (default v : A) : Prop :=
  kw = Some v \/ kw = None /\ (p = Some v \/ p = None /\ v = default).
Theorem C103_camera_options kw p :
  let c := init_camera kw p in
  chosen (o_follow kw) (o_follow p) NoFollow (follow_id c) /\
  chosen (o_bounds kw) (o_bounds p) true (use_world_bounds c) /\
  chosen (o_center kw) (o_center p) (0, 0) (center c) /\
  chosen (o_ex kw) (o_ex p) true (enforce_x c) /\
  chosen (o_ey kw) (o_ey p) false (enforce_y c) /\
  chosen (o_xr kw) (o_xr p) (-40 # 1, 40 # 1) (x_range c) /\
  chosen (o_yr kw) (o_yr p) (-40 # 1, 40 # 1) (y_range c) /\
  exists z : Z,   (* the default of both lengths *)
    chosen (o_xl kw) (o_xl p) (inject_Z z) (x_length c) /\ chosen (o_yl kw) (o_yl p) (inject_Z z) (y_length c) /\
    inject_Z z <= Qabs (fst (y_range c)) + Qabs (snd (y_range c)) < inject_Z z + 1.
Proof.
  assert (Pk : forall A (a b : option A) d, chosen a b d (pick a b d)).
  { intros A [a|] [b|] d; unfold chosen, pick; auto. }
  intros c. repeat (split; [apply Pk|]). unfold c, init_camera. cbn [y_range x_length y_length].
  generalize (pick (o_yr kw) (o_yr p) (-40 # 1, 40 # 1)). intros [a b]. cbn [fst snd].
  exists (Qnum (Qabs' a + Qabs' b) / Zpos (Qden (Qabs' a + Qabs' b)))%Z.
  split; [apply Pk|]. split; [apply Pk|].
  assert (Ab : forall x, Qabs x == Qabs' x).
  { intros x. unfold Qabs'. destruct (Qltb x 0) eqn:X; rewrite ?Qltb_iff, ?Qltb_false in X; [apply Qabs_neg|apply Qabs_pos]; lra. }
  rewrite !Ab. generalize (Qabs' a + Qabs' b). clear. intros [n d]. cbn [Qnum Qden]. unfold Qle, Qlt, Qplus, inject_Z. cbn [Qnum Qden].
  pose proof (Z.div_mod n (Zpos d) ltac:(lia)). pose proof (Z.mod_pos_bound n (Zpos d) ltac:(lia)). split; nia.
Qed.

(* --- examples and refuted expectations --- *)
Definition toy_w : vworld :=
  mkVW [(0%N, mkVA (5, 6) false); (1%N, mkVA (7, 8) true); (9%N, mkVA (1, 2) true)] [0%N; 9%N] ((0, 0), (100, 20)).
Definition toy_cam (f : follow) (bounds ex ey : bool) : camera := mkCam bounds f (1, 1) (-40 # 1, 40 # 1) (-40 # 1, 40 # 1) ex ey 40 80.
Definition toy_old : view := ((-40 # 1, 40 # 1), (-40 # 1, 40 # 1)).
Example C103_nonvacuous_bounds :
  (forall i, ~ (wanted_agent (toy_cam NoFollow true true false) None i /\ in_world toy_w i)) /\
  let v := update_view (toy_cam NoFollow true true false) (16 # 9) toy_w None toy_old in
  fst (snd v) == -(40) /\ snd (snd v) == 60 /\ width v == 100.
Proof.
  split; [intros i ([X|(b & X & _)] & _); discriminate|]. vm_compute. auto.
Qed.
Example C103_nonvacuous_follow :
  NoDup (agent_ids toy_w) /\ wanted_agent (toy_cam (FollowId 9) true true false) None 9 /\
  let v := update_view (toy_cam (FollowId 9) true true false) (2 # 1) toy_w None toy_old in
  fst (fst v) == -(19) /\ snd (fst v) == 21 /\ fst (snd v) == -(8) /\ snd (snd v) == 12.
Proof.
  split; [vm_compute; repeat constructor; cbn; intuition discriminate|]. split; [now left|]. vm_compute. auto.
Qed.
(* FollowAgentIds = False does not follow: false, with a single evaluated agent it is followed *)
Theorem C103_false_does_not_follow_refuted :
  followed (toy_cam (FollowFlag false) true true false) toy_w (Some [9%N]) = Some 9%N /\
  (* and with two evaluated agents True follows agent 1, False agent 0, neither of them evaluated *)
  followed (toy_cam (FollowFlag true) true true false) toy_w (Some [9%N; 10%N]) = Some 1%N /\
  followed (toy_cam (FollowFlag false) true true false) toy_w (Some [9%N; 10%N]) = Some 0%N.
Proof. vm_compute. auto. Qed.
(* the default length of the view along x is the length of the x range: false, it is that of the y range, and of
   [0, that range] if both bounds have the same sign *)
Theorem C103_default_length_of_x_range_refuted :
  exists kw, let c := init_camera kw no_opts in
    snd (x_range c) - fst (x_range c) == 200 /\ x_length c == 80 /\
    exists kw', let c' := init_camera kw' no_opts in
      snd (x_range c') - fst (x_range c') == 10 /\ snd (y_range c') - fst (y_range c') == 10 /\ x_length c' == 30.
Proof.
  exists (mkCO None None None (Some (-100 # 1, 100 # 1)) None None None None None). split; [reflexivity|]. split; [reflexivity|].
  exists (mkCO None None None (Some (10 # 1, 20 # 1)) (Some (10 # 1, 20 # 1)) None None None None). repeat split.
Qed.
(* options given to the viewer hold during a benchmark: false, the runner initialises it again from parameters alone *)
Theorem C103_keywords_survive_a_benchmark_refuted :
  exists kw p, follow_id (init_camera kw p) = FollowId 9 /\ use_world_bounds (init_camera kw p) = false /\
    follow_id (benchmark_camera (init_camera kw p) p) = NoFollow /\ use_world_bounds (benchmark_camera (init_camera kw p) p) = true.
Proof.
  exists (mkCO (Some false) (Some (FollowId 9)) None None None None None None None), no_opts.
  split; [reflexivity|]. split; [reflexivity|]. split; reflexivity.
Qed.

Print Assumptions C103_followed_agent.
Print Assumptions C103_world_bounds.
Print Assumptions C103_follows_the_agent.
Print Assumptions C103_fixed_centre.
Print Assumptions C103_camera_options.
