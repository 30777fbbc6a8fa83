(* C102: exporting benchmark results. *)
From Coq Require Import String List ZArith QArith NArith Bool Lia Permutation.
From Verif Require Import Model_Analyzer Proof_Analyzer Props_Analyzer Model_Dumper.
Import ListNotations.
Local Open Scope nat_scope.

Section C102.
  Context {Scen Par Txt V : Type}.
  Context (world_of : Scen -> option (list (N * list state))) (map_name : Par -> option string)
          (map_text : string -> option Txt) (basename : string -> string) (set_order : list Z -> list Z)
          (srt : list (nat * Model_Analyzer.row V) -> list (Model_Analyzer.row V)).
  Notation result := (result (Scen:=Scen) (Par:=Par)).
  Notation fsys := (fsys (Par:=Par) (Txt:=Txt)).
  Notation content := (content (Par:=Par) (Txt:=Txt)).
  Notation csv := (write_trajectory (Par:=Par) (Txt:=Txt) world_of).
  Notation osc := (write_openscenario (Par:=Par) (Txt:=Txt) world_of).
  Notation exp d := (export world_of map_name map_text basename d).
  Notation exp_all d := (export_all world_of map_name map_text basename d).
  Implicit Types (r : result) (f : fsys) (c : content).

  (* --- what an export is expected to leave in the result folder --- *)
  Definition entry (s : state) (k : nat) : Q := nth k s 0%Q.
  Definition line_of (a : N) (s : state) : trow :=
    mkTR a (entry s 0) (entry s 1) (entry s 2) (entry s 3) (entry s 4).
  Definition vertex_at (s : state) : vertex := mkVx (entry s 0) (entry s 1) (entry s 2) 0 (entry s 3).
  (* the first config of that index *)
  Definition config_of r (i : Z) (p : Par) : Prop :=
    exists l1 l2, configs r = l1 ++ (i, p) :: l2 /\ forall q, ~ In (i, q) l1.
  (* the last world stored for a config *)
  Definition last_world r (i : Z) (w : list (N * list state)) : Prop :=
    exists h s, histories r i = Some (h ++ [s]) /\ world_of s = Some w.
  Inductive common_file r (i : Z) : path -> content -> Prop :=
  | cf_folder : common_file r i (Folder i) IsFolder
  | cf_params p : config_of r i p -> common_file r i (InFolder i "scenario_parameters.json") (Params p)
  | cf_map p m t : config_of r i p -> map_name p = Some m -> map_text m = Some t ->
      common_file r i (AtRoot (basename m)) (MapText t).
  (* one line per agent of the last world and state of its history, agents by id, states in order *)
  Inductive csv_file r (i : Z) : path -> content -> Prop :=
  | csv_common p c : common_file r i p c -> csv_file r i p c
  | csv_table w : last_world r i w ->
      csv_file r i (InFolder i "trajectories.csv") (Rows (flat_map (fun ah => map (line_of (fst ah)) (snd ah)) w)).
  Inductive osc_file r (i : Z) : path -> content -> Prop :=
  | osc_common p c : common_file r i p c -> osc_file r i p c
  | osc_track w a h : last_world r i w -> In (a, h) w -> osc_file r i (Trajectory i a) (Vertices (map vertex_at h)).

  Definition map_available r (i : Z) : Prop :=
    forall p, config_of r i p -> exists m t, map_name p = Some m /\ map_text m = Some t.
  Definition csv_exportable r (i : Z) : Prop :=
    map_available r i /\
    (histories r i = None \/ exists w, last_world r i w /\ (exists a h, In (a, h) w /\ h <> []) /\
       forall a h s, In (a, h) w -> In s h -> 5 <= length s).
  Definition osc_exportable r (i : Z) : Prop :=
    map_available r i /\
    (histories r i = None \/ exists w, last_world r i w /\ forall a h s, In (a, h) w -> In s h -> 4 <= length s).
  (* ids of the agents of a world are keys of a map *)
  Definition ids_unique : Prop := forall s w, world_of s = Some w -> NoDup (map fst w).

  (* --- proofs --- *)
  Lemma path_eqb_spec p q : reflect (p = q) (path_eqb p q).
  Proof.
    destruct p, q; cbn; try (constructor; discriminate);
      repeat match goal with
             | |- context [Z.eqb ?a ?b] => destruct (Z.eqb_spec a b)
             | |- context [N.eqb ?a ?b] => destruct (N.eqb_spec a b)
             | |- context [String.eqb ?a ?b] => destruct (String.eqb_spec a b) end; cbn; constructor; congruence.
  Qed.
  Lemma write_same p c f : write p c f p = Some c.
  Proof. unfold write. destruct (path_eqb_spec p p); congruence. Qed.
  Lemma write_other p q c f : p <> q -> write p c f q = f q.
  Proof. unfold write. destruct (path_eqb_spec p q); congruence. Qed.

  Lemma get_config_spec r i p : get_config r i = Some p <-> config_of r i p.
  Proof.
    unfold get_config, config_of. induction (configs r) as [|[j q] l IH]; cbn [find fst].
    - split; [discriminate|]. intros (l1 & l2 & E & _). now destruct l1.
    - destruct (Z.eqb_spec j i) as [->|Ne]; cbn [snd].
      + split.
        * intros E. inversion E; subst. exists [], l. split; auto.
        * intros ([|y l1] & l2 & E & N); inversion E; subst; [reflexivity|]. exfalso. apply (N q). now left.
      + rewrite IH. split; intros (l1 & l2 & E & N).
        * exists ((j, q) :: l1), l2. rewrite E. split; auto. intros q' [I|I]; [congruence|]. now apply (N q').
        * destruct l1 as [|y l1]; inversion E; subst; [congruence|]. exists l1, l2. split; auto.
          intros q' I. apply (N q'). now right.
  Qed.
  Lemma get_config_none r i : get_config r i = None -> forall p, ~ config_of r i p.
  Proof. intros E p C. apply get_config_spec in C. congruence. Qed.
  Lemma config_of_unique r i p q : config_of r i p -> config_of r i q -> p = q.
  Proof. intros A B. apply get_config_spec in A, B. congruence. Qed.

  Lemma last_scen_spec (h : list Scen) s : last_scen h = inl s <-> exists h', h = h' ++ [s].
  Proof.
    unfold last_scen. split.
    - destruct (rev h) eqn:E; [discriminate|]. intros X. inversion X; subst. exists (rev l).
      rewrite <- (rev_involutive h), E. reflexivity.
    - intros (h' & ->). rewrite rev_app_distr. reflexivity.
  Qed.
  Lemma last_world_iff r i w h : histories r i = Some h -> last_world r i w <-> exists s, last_scen h = inl s /\ world_of s = Some w.
  Proof.
    intros E. split.
    - intros (h' & s & E' & W). exists s. rewrite E in E'. inversion E'; subst. split; auto. apply last_scen_spec. eauto.
    - intros (s & L & W). apply last_scen_spec in L as (h' & ->). exists h', s. auto.
  Qed.

  Lemma rows_of_spec a h : (forall s, In s h -> 5 <= length s) -> rows_of a h = inl (map (line_of a) h).
  Proof.
    induction h as [|s h IH]; intros L; [reflexivity|]. cbn [rows_of map].
    assert (L5 := L s (or_introl eq_refl)). destruct s as [|t [|x [|y [|th [|v m]]]]]; cbn in L5; try lia.
    cbn [row_of]. rewrite IH; [reflexivity|]. intros s I. apply L. now right.
  Qed.
  Lemma rows_of_inv a h l : rows_of a h = inl l -> forall s, In s h -> 5 <= length s.
  Proof.
    revert l. induction h as [|s h IH]; intros l E x [].
    - subst x. cbn [rows_of] in E. destruct s as [|t [|x [|y [|th [|v m]]]]]; cbn in *; try discriminate; lia.
    - cbn [rows_of] in E. destruct (row_of a s); [|discriminate]. destruct (rows_of a h); [|discriminate]. eauto.
  Qed.
  Lemma table_spec w : (forall a h s, In (a, h) w -> In s h -> 5 <= length s) ->
    table w = inl (flat_map (fun ah => map (line_of (fst ah)) (snd ah)) w).
  Proof.
    induction w as [|[a h] w IH]; intros L; [reflexivity|]. cbn [table flat_map fst snd].
    rewrite rows_of_spec, IH; [reflexivity| |].
    - intros a' h' s I. apply (L a' h' s). now right.
    - intros s. apply (L a h s). now left.
  Qed.
  Lemma table_inv w l : table w = inl l -> forall a h s, In (a, h) w -> In s h -> 5 <= length s.
  Proof.
    revert l. induction w as [|[a h] w IH]; intros l E a' h' s []; cbn [table] in E;
      destruct (rows_of a h) eqn:R; try discriminate; destruct (table w) eqn:T; try discriminate.
    - inversion H; subst. eapply rows_of_inv; eauto.
    - eauto.
  Qed.
  Lemma flat_map_nil {A B} (g : A -> list B) l : flat_map g l = [] <-> forall x, In x l -> g x = [].
  Proof.
    induction l as [|x l IH]; cbn.
    - split; [intros _ x []|auto].
    - split.
      + intros E. apply app_eq_nil in E as [A1 A2]. intros y [<-|I]; auto. now apply IH.
      + intros H. rewrite (H x) by auto. apply IH. auto.
  Qed.

  Lemma vertices_of_spec h : (forall s, In s h -> 4 <= length s) -> vertices_of h = inl (map vertex_at h).
  Proof.
    induction h as [|s h IH]; intros L; [reflexivity|]. cbn [vertices_of map].
    assert (L5 := L s (or_introl eq_refl)). destruct s as [|t [|x [|y [|th m]]]]; cbn in L5; try lia.
    cbn [vertex_of]. rewrite IH; [reflexivity|]. intros s I. apply L. now right.
  Qed.
  Lemma vertices_of_inv h l : vertices_of h = inl l -> forall s, In s h -> 4 <= length s.
  Proof.
    revert l. induction h as [|s h IH]; intros l E x [].
    - subst x. cbn [vertices_of] in E. destruct s as [|t [|x [|y [|th m]]]]; cbn in *; try discriminate; lia.
    - cbn [vertices_of] in E. destruct (vertex_of s); [|discriminate]. destruct (vertices_of h); [|discriminate]. eauto.
  Qed.

  (* the new file system: these files, all else unchanged *)
  Definition leaves (files : path -> content -> Prop) f f' : Prop :=
    (forall p c, files p c -> f' p = Some c) /\ (forall p, (forall c, ~ files p c) -> f' p = f p).

  (* everything after the trajectories *)
  Definition rest r i f : fsys * dres unit :=
    bind (write_scenario_parameter r i f) (fun f2 =>
    bind (write_behavior_parameter world_of r i f2) (fun f3 => write_map map_name map_text basename r i f3)).
  Definition world_exists r i : Prop := histories r i = None \/ exists w, last_world r i w.
  Lemma behavior_spec r i f : fst (write_behavior_parameter (Txt:=Txt) world_of r i f) = f /\
    (snd (write_behavior_parameter world_of r i f) = inl tt <-> world_exists r i).
  Proof.
    unfold write_behavior_parameter, world_exists. destruct (histories r i) as [h|] eqn:H; [|cbn; tauto].
    pose proof (fun w => last_world_iff r i w h H) as LW.
    destruct (last_scen h) as [s|] eqn:L.
    - destruct (world_of s) as [w|] eqn:W; cbn; split; auto; split; intros X; try discriminate; auto.
      + right. exists w. apply LW. eauto.
      + destruct X as [X|(w & X)]; [discriminate|]. apply LW in X as (s' & E & W'). congruence.
    - cbn. split; auto. split; [discriminate|]. intros [X|(w & X)]; [discriminate|]. apply LW in X as (s' & E & _). congruence.
  Qed.
  Lemma rest_ok r i f : world_exists r i -> map_available r i ->
    exists f', rest r i f = (f', inl tt) /\
      leaves (fun p c => common_file r i p c /\ p <> Folder i) f f'.
  Proof.
    intros WE MA. unfold rest, write_scenario_parameter.
    assert (B : forall g, write_behavior_parameter (Txt:=Txt) world_of r i g = (g, inl tt)).
    { intros g. destruct (behavior_spec r i g) as (A & C). apply C in WE.
      destruct (write_behavior_parameter world_of r i g) as [g2 u]; cbn [fst snd] in A, WE. subst. reflexivity. }
    unfold write_map. destruct (get_config r i) as [p|] eqn:G; cbn [bind]; rewrite B; cbn [bind].
    - pose proof (proj1 (get_config_spec _ _ _) G) as Cp. destruct (MA p Cp) as (m & t & M & T). rewrite M, T.
      eexists. split; [reflexivity|]. split.
      + intros q c (C & N). inversion C; subst; [congruence| |].
        * rewrite write_other by discriminate. rewrite (config_of_unique _ _ _ _ H Cp). apply write_same.
        * rewrite (config_of_unique _ _ _ _ H Cp) in *. assert (m0 = m) by congruence. subst. assert (t0 = t) by congruence. subst.
          apply write_same.
      + intros q N. rewrite write_other, write_other; auto; intros <-.
        * apply (N (Params p)). split; [now constructor|discriminate].
        * apply (N (MapText t)). split; [econstructor; eauto|discriminate].
    - exists f. split; auto. pose proof (get_config_none _ _ G) as NC. split.
      + intros q c (C & N). inversion C; subst; [congruence| |]; exfalso; eapply NC; eauto.
      + auto.
  Qed.
  Lemma rest_inv r i f f' : rest r i f = (f', inl tt) -> world_exists r i /\ map_available r i.
  Proof.
    unfold rest. destruct (write_scenario_parameter r i f) as [f1 [u|e]]; [|discriminate]. cbn [bind].
    destruct (behavior_spec r i f1) as (A & C). destruct (write_behavior_parameter world_of r i f1) as [f2 [[]|e]]; [|discriminate].
    cbn [bind]. intros E. split; [now apply C|]. intros p Cp. apply get_config_spec in Cp. unfold write_map in E. rewrite Cp in E.
    destruct (map_name p) as [m|]; [|discriminate]. destruct (map_text m) as [t|] eqn:T; [|discriminate]. eauto.
  Qed.
  Lemma export_split d r i f : exp d r i f = bind (d r i (write (Folder i) IsFolder f)) (rest r i).
  Proof. reflexivity. Qed.

  Lemma csv_ok r i f : (histories r i = None \/ exists w, last_world r i w /\ (exists a h, In (a, h) w /\ h <> []) /\
       forall a h s, In (a, h) w -> In s h -> 5 <= length s) ->
    exists f', csv r i f = (f', inl tt) /\
      leaves (fun p c => exists w, last_world r i w /\ p = InFolder i "trajectories.csv" /\
                         c = Rows (flat_map (fun ah => map (line_of (fst ah)) (snd ah)) w)) f f'.
  Proof.
    unfold write_trajectory. intros [E|(w & LW & (a0 & h0 & I0 & N0) & L)].
    - rewrite E. exists f. split; auto. split; auto. intros p c (w & (h & s & E' & _) & _). congruence.
    - destruct (histories r i) as [h|] eqn:E; [|destruct LW as (? & ? & X & _); congruence].
      apply (last_world_iff r i w h E) in LW as (s & Ls & W). rewrite Ls, W, (table_spec w L).
      destruct (flat_map _ w) as [|x l] eqn:FM.
      { exfalso. rewrite flat_map_nil in FM. specialize (FM _ I0). cbn in FM. apply map_eq_nil in FM. auto. }
      eexists. split; [reflexivity|]. split.
      + intros p c (w' & LW' & -> & ->). apply (last_world_iff r i w' h E) in LW' as (s' & Ls' & W').
        assert (s' = s) by congruence. subst. assert (w' = w) by congruence. subst. rewrite FM. apply write_same.
      + intros p N. apply write_other. intros <-. apply (N (Rows (x :: l))). exists w. split; [|now rewrite FM].
        apply (last_world_iff r i w h E). eauto.
  Qed.
  Lemma csv_inv r i f f' : csv r i f = (f', inl tt) ->
    histories r i = None \/ exists w, last_world r i w /\ (exists a h, In (a, h) w /\ h <> []) /\
       forall a h s, In (a, h) w -> In s h -> 5 <= length s.
  Proof.
    unfold write_trajectory. destruct (histories r i) as [h|] eqn:E; [|auto]. intros X. right.
    destruct (last_scen h) as [s|] eqn:L; [|discriminate]. destruct (world_of s) as [w|] eqn:W; [|discriminate].
    destruct (table w) as [l|] eqn:T; [|discriminate]. exists w. split; [apply (last_world_iff r i w h E); eauto|].
    pose proof (table_inv _ _ T) as L5. split; auto. rewrite (table_spec w L5) in T. inversion T as [FM]. clear T.
    destruct (Exists_dec (fun ah : N * list state => snd ah <> []) w) as [Ex|Ne].
    { intros [a k]. destruct k; [right|left]; cbn; congruence. }
    - apply Exists_exists in Ex as ([a k] & I & N). eauto.
    - exfalso. assert (FM0 : flat_map (fun ah => map (line_of (fst ah)) (snd ah)) w = []).
      { apply flat_map_nil. intros [a k] I. destruct k as [|x k]; [reflexivity|]. exfalso. apply Ne. apply Exists_exists.
        exists (a, x :: k). split; auto. cbn. discriminate. }
      rewrite FM0 in FM. subst l. discriminate X.
  Qed.

  (* exporting one config *)
  Theorem C102_csv_export_leaves_these_files r i f f' : exp csv r i f = (f', inl tt) -> leaves (csv_file r i) f f'.
  Proof.
    rewrite export_split. destruct (csv r i (write (Folder i) IsFolder f)) as [f1 [[]|e]] eqn:C; [|discriminate]. cbn [bind].
    intros E. pose proof (csv_inv _ _ _ _ C) as G. destruct (csv_ok r i (write (Folder i) IsFolder f) G) as (g & C' & (A1 & A2)).
    assert (g = f1) by congruence. subst g. destruct (rest_inv _ _ _ _ E) as (WE & MA).
    destruct (rest_ok r i f1 WE MA) as (g & E' & (B1 & B2)). assert (g = f') by congruence. subst g. split.
    - intros p c [p' c' Cf|w LW].
      + destruct (path_eqb_spec p' (Folder i)) as [->|Np].
        * rewrite B2 by (intros ? (_ & X); congruence). inversion Cf; subst.
          rewrite A2 by (intros ? (w & _ & X & _); discriminate). apply write_same.
        * apply B1. auto.
      + rewrite B2; [apply A1; eauto|]. intros c2 (Cf & _). inversion Cf.
    - intros p N. rewrite B2, A2.
      + apply write_other. intros <-. apply (N IsFolder). do 2 constructor.
      + intros c (w & LW & -> & ->). eapply N. apply csv_table; eauto.
      + intros c (Cf & _). eapply N. apply csv_common; eauto.
  Qed.
  Theorem C102_csv_export_succeeds_iff r i f : (exists f', exp csv r i f = (f', inl tt)) <-> csv_exportable r i.
  Proof.
    rewrite export_split. unfold csv_exportable. split.
    - intros (f' & E). destruct (csv r i (write (Folder i) IsFolder f)) as [f1 [[]|e]] eqn:C; [|discriminate]. cbn [bind] in E.
      split; [eapply rest_inv; eauto|eapply csv_inv; eauto].
    - intros (MA & H). destruct (csv_ok r i (write (Folder i) IsFolder f) H) as (f1 & C & _). rewrite C. cbn [bind].
      destruct (rest_ok r i f1) as (f' & E & _); [|exact MA|exists f'; exact E].
      unfold world_exists. destruct H as [H|(w & LW & _)]; eauto.
  Qed.

  Lemma polylines_ok i w : NoDup (map fst w) -> (forall a h s, In (a, h) w -> In s h -> 4 <= length s) -> forall f,
    exists f', write_polylines i w f = (f', inl tt) /\
      leaves (fun p c => exists a h, In (a, h) w /\ p = Trajectory i a /\ c = Vertices (map vertex_at h)) f f'.
  Proof.
    induction w as [|[a h] w IH]; intros ND L f.
    - exists f. split; [reflexivity|]. split; auto. now intros p c (a & h & [] & _).
    - cbn [map fst] in ND. inversion ND as [|? ? Ni ND']; subst. cbn [write_polylines].
      rewrite vertices_of_spec by (intros s I; apply (L a h s); [now left|exact I]).
      destruct (IH ND' (fun a' h' s I => L a' h' s (or_intror I)) (write (Trajectory i a) (Vertices (map vertex_at h)) f))
        as (f' & E & A & B).
      exists f'. split; [exact E|]. split.
      + intros p c (a' & h' & [I|I] & -> & ->).
        * inversion I; subst. rewrite B; [apply write_same|]. intros c (a2 & h2 & I2 & Eq & _). inversion Eq; subst.
          apply Ni. apply in_map_iff. exists (a2, h2). auto.
        * apply A. eauto.
      + intros p N. rewrite B.
        * apply write_other. intros <-. eapply N. exists a, h. split; [now left|]. auto.
        * intros c (a2 & h2 & I2 & -> & ->). eapply N. exists a2, h2. split; [now right|]. auto.
  Qed.
  Lemma polylines_inv i w : forall f f', write_polylines (Txt:=Txt) (Par:=Par) i w f = (f', inl tt) ->
    forall a h s, In (a, h) w -> In s h -> 4 <= length s.
  Proof.
    induction w as [|[a h] w IH]; intros f f' E a' h' s []; cbn [write_polylines] in E;
      destruct (vertices_of h) eqn:R; try discriminate.
    - inversion H; subst. eapply vertices_of_inv; eauto.
    - eauto.
  Qed.
  Lemma osc_inv r i f f' : osc r i f = (f', inl tt) ->
    histories r i = None \/ exists w, last_world r i w /\ forall a h s, In (a, h) w -> In s h -> 4 <= length s.
  Proof.
    unfold write_openscenario. destruct (histories r i) as [h|] eqn:E; [|auto]. intros X. right.
    destruct (last_scen h) as [s|] eqn:L; [|discriminate]. destruct (world_of s) as [w|] eqn:W; [|discriminate].
    exists w. split; [apply (last_world_iff r i w h E); eauto|eapply polylines_inv; eauto].
  Qed.
  Lemma osc_ok r i f : ids_unique ->
    (histories r i = None \/ exists w, last_world r i w /\ forall a h s, In (a, h) w -> In s h -> 4 <= length s) ->
    exists f', osc r i f = (f', inl tt) /\
      leaves (fun p c => exists w a h, last_world r i w /\ In (a, h) w /\ p = Trajectory i a /\ c = Vertices (map vertex_at h)) f f'.
  Proof.
    unfold write_openscenario. intros IU [E|(w & LW & L)].
    - rewrite E. exists f. split; auto. split; auto. intros p c (w & a & k & (h & s & E' & _) & _). congruence.
    - destruct (histories r i) as [h|] eqn:E; [|destruct LW as (? & ? & X & _); congruence]. pose proof LW as LW0.
      apply (last_world_iff r i w h E) in LW as (s & Ls & W). rewrite Ls, W.
      destruct (polylines_ok i w (IU _ _ W) L f) as (f' & E' & A & B). exists f'. split; [exact E'|]. split.
      + intros p c (w' & a & k & LW' & I & -> & ->). apply A. exists a, k. split; auto.
        apply (last_world_iff r i w' h E) in LW' as (s' & Ls' & W'). assert (s' = s) by congruence. subst. assert (w' = w) by congruence. now subst.
      + intros p N. apply B. intros c (a & k & I & -> & ->). eapply N. exists w, a, k. auto.
  Qed.
  Theorem C102_openscenario_export_leaves_these_files r i f f' : ids_unique ->
    exp osc r i f = (f', inl tt) -> leaves (osc_file r i) f f'.
  Proof.
    intros IU. rewrite export_split. destruct (osc r i (write (Folder i) IsFolder f)) as [f1 [[]|e]] eqn:C; [|discriminate].
    cbn [bind]. intros E. pose proof (osc_inv _ _ _ _ C) as G.
    destruct (osc_ok r i (write (Folder i) IsFolder f) IU G) as (g & C' & (A1 & A2)).
    assert (g = f1) by congruence. subst g. destruct (rest_inv _ _ _ _ E) as (WE & MA).
    destruct (rest_ok r i f1 WE MA) as (g & E' & (B1 & B2)). assert (g = f') by congruence. subst g. split.
    - intros p c [p' c' Cf|w a h LW I].
      + destruct (path_eqb_spec p' (Folder i)) as [->|Np].
        * rewrite B2 by (intros ? (_ & X); congruence). inversion Cf; subst.
          rewrite A2 by (intros ? (? & ? & ? & _ & _ & X & _); discriminate). apply write_same.
        * apply B1. auto.
      + rewrite B2; [apply A1; exists w, a, h; auto|]. intros c2 (Cf & _). inversion Cf.
    - intros p N. rewrite B2, A2.
      + apply write_other. intros <-. apply (N IsFolder). do 2 constructor.
      + intros c (w & a & h & LW & I & -> & ->). eapply N. eapply osc_track; eauto.
      + intros c (Cf & _). eapply N. apply osc_common; eauto.
  Qed.
  Theorem C102_openscenario_export_succeeds_iff r i f : ids_unique ->
    (exists f', exp osc r i f = (f', inl tt)) <-> osc_exportable r i.
  Proof.
    intros IU. rewrite export_split. unfold osc_exportable. split.
    - intros (f' & E). destruct (osc r i (write (Folder i) IsFolder f)) as [f1 [[]|e]] eqn:C; [|discriminate]. cbn [bind] in E.
      split; [eapply rest_inv; eauto|eapply osc_inv; eauto].
    - intros (MA & H). destruct (osc_ok r i (write (Folder i) IsFolder f) IU H) as (f1 & C & _). rewrite C. cbn [bind].
      destruct (rest_ok r i f1) as (f' & E & _); [|exact MA|exists f'; exact E].
      unfold world_exists. destruct H as [H|(w & LW & _)]; eauto.
  Qed.

  (* --- several configs, one after the other --- *)
  Lemma several_ok d (files : Z -> path -> content -> Prop) r l :
    (forall i f, In i l -> exists f', exp d r i f = (f', inl tt) /\ leaves (files i) f f') -> forall f,
    exists f', exp_all d r l f = (f', inl tt) /\
      (forall l1 i l2 p c, l = l1 ++ i :: l2 -> files i p c -> (forall j c', In j l2 -> ~ files j p c') -> f' p = Some c) /\
      (forall p, (forall i c, In i l -> ~ files i p c) -> f' p = f p).
  Proof.
    induction l as [|i l IH]; intros H f; cbn [export_all].
    - exists f. split; auto. split; auto. intros l1 i l2 p c E. now destruct l1.
    - destruct (H i f (or_introl eq_refl)) as (f1 & E & A & B). rewrite E. cbn [bind].
      destruct (IH (fun j g I => H j g (or_intror I)) f1) as (f' & E' & A' & B'). exists f'. split; auto. split.
      + intros l1 j l2 p c Eq F N. destruct l1 as [|k l1]; inversion Eq; subst.
        * rewrite B'; [auto|]. intros q c' I. now apply N.
        * eapply A'; eauto.
      + intros p N. rewrite B', B; auto.
        * intros c. apply N. now left.
        * intros j c I. apply N. now right.
  Qed.
  Lemma several_stop d r l1 i l2 f f1 f' e : exp_all d r l1 f = (f1, inl tt) -> exp d r i f1 = (f', inr e) ->
    exp_all d r (l1 ++ i :: l2) f = (f', inr e).
  Proof.
    revert f. induction l1 as [|j l1 IH]; intros f E X; cbn [app export_all] in *.
    - inversion E; subst. now rewrite X.
    - destruct (exp d r j f) as [g [u|x]]; cbn [bind] in *; [auto|discriminate].
  Qed.

  (* every config can be exported: all of them have their files, at a path shared by several configs the last one wins,
     everything else is as before *)
  Theorem C102_csv_several r l f : (forall i, In i l -> csv_exportable r i) ->
    exists f', exp_all csv r l f = (f', inl tt) /\
      (forall l1 i l2 p c, l = l1 ++ i :: l2 -> csv_file r i p c -> (forall j c', In j l2 -> ~ csv_file r j p c') -> f' p = Some c) /\
      (forall p, (forall i c, In i l -> ~ csv_file r i p c) -> f' p = f p).
  Proof.
    intros H. apply several_ok. intros i g I. destruct (proj2 (C102_csv_export_succeeds_iff r i g) (H i I)) as (g' & E).
    exists g'. split; auto. now apply C102_csv_export_leaves_these_files.
  Qed.
  Theorem C102_openscenario_several r l f : ids_unique -> (forall i, In i l -> osc_exportable r i) ->
    exists f', exp_all osc r l f = (f', inl tt) /\
      (forall l1 i l2 p c, l = l1 ++ i :: l2 -> osc_file r i p c -> (forall j c', In j l2 -> ~ osc_file r j p c') -> f' p = Some c) /\
      (forall p, (forall i c, In i l -> ~ osc_file r i p c) -> f' p = f p).
  Proof.
    intros IU H. apply several_ok. intros i g I. destruct (proj2 (C102_openscenario_export_succeeds_iff r i g IU) (H i I)) as (g' & E).
    exists g'. split; auto. now apply C102_openscenario_export_leaves_these_files.
  Qed.
  (* the first config that cannot be exported ends the export: the earlier ones are complete, the later ones not begun *)
  Theorem C102_csv_stops_at_the_first_failure r l1 i l2 f :
    (forall j, In j l1 -> csv_exportable r j) -> ~ csv_exportable r i ->
    exists f1 f' e, exp_all csv r l1 f = (f1, inl tt) /\ exp csv r i f1 = (f', inr e) /\
      exp_all csv r (l1 ++ i :: l2) f = (f', inr e) /\
      (forall j p c, csv_file r j p c -> (forall n, p <> AtRoot n) -> j <> i -> f' p = f1 p).
  Proof.
    intros H N. destruct (C102_csv_several r l1 f H) as (f1 & E & _). exists f1.
    destruct (exp csv r i f1) as [f' [[]|e]] eqn:X.
    { exfalso. apply N. apply (C102_csv_export_succeeds_iff r i f1). eauto. }
    exists f', e. split; auto. split; auto. split; [eapply several_stop; eauto|].
    intros j p c F NR Ne. assert (Q : forall n, p <> InFolder i n /\ p <> Folder i).
    { intros n. inversion F as [? ? C|]; subst; [|split; congruence]. inversion C; subst; split; try congruence. }
    clear - X Q NR.
    assert (Q0 : forall g c, write (Folder i) c g p = g p) by (intros; apply write_other; intros <-; now apply (proj2 (Q ""%string))).
    assert (Q1 : forall g n c, write (InFolder i n) c g p = g p) by (intros; apply write_other; intros <-; now apply (proj1 (Q n))).
    assert (Q2 : forall g n c, write (AtRoot n) c g p = g p) by (intros; apply write_other; intros <-; now apply (NR n)).
    assert (T : forall g, fst (csv r i g) p = g p).
    { intros g. unfold write_trajectory. destruct (histories r i) as [h|]; [|auto]. destruct (last_scen h) as [s|]; [|auto].
      destruct (world_of s) as [w|]; [|auto]. destruct (table w) as [[|x l]|]; cbn [fst]; auto. }
    assert (P : forall g : fsys, fst (write_scenario_parameter r i g) p = g p).
    { intros g. unfold write_scenario_parameter. destruct (get_config r i); cbn [fst]; auto. }
    assert (B : forall g : fsys, fst (write_behavior_parameter (Txt:=Txt) world_of r i g) p = g p).
    { intros g. now rewrite (proj1 (behavior_spec r i g)). }
    assert (W : forall g : fsys, fst (write_map map_name map_text basename r i g) p = g p).
    { intros g. unfold write_map. destruct (get_config r i) as [q|]; [|auto]. destruct (map_name q) as [m|]; [|auto].
      destruct (map_text m); cbn [fst]; auto. }
    assert (Bd : forall x k, (forall g : fsys, fst (k g) p = g p) -> fst (bind (Par:=Par) (Txt:=Txt) x k) p = fst x p).
    { intros [g [u|y]] k Hk; cbn [bind fst]; auto. }
    transitivity (fst (exp csv r i f1) p); [now rewrite X|]. unfold export.
    rewrite Bd, T, Q0; auto. intros g2. rewrite Bd, P; auto. intros g3. rewrite Bd, B; auto.
  Qed.

  (* --- which configs are exported --- *)
  (* walking a set: every element once *)
  Hypothesis set_walk : forall l, NoDup (set_order l) /\ forall x, In x (set_order l) <-> In x l.
  Lemma isinz_iff x l : isinz x l = true <-> In x l.
  Proof.
    unfold isinz. rewrite existsb_exists. split; [intros (y & I & E); apply Z.eqb_eq in E; now subst|].
    intros I. exists x. split; auto. apply Z.eqb_refl.
  Qed.
  Notation exp_filter d := (export_scenarios_filter (V:=V) world_of map_name map_text basename set_order srt d).
  (* the configs of the rows accepted by all criteria, in the order of the table; none without criteria *)
  Definition matching (fr : frame V) (criteria : list (string * (V -> option bool))) (cs : list Z) : Prop :=
    criteria = [] /\ cs = [] \/
    criteria <> [] /\ exists accept, (forall w, accept w = true <-> fits criteria w) /\
                       cs = map (r_conf V) (filter accept (f_rows V fr)).
  Theorem C102_exported_configs d r fr criteria given f f' l :
    exp_filter d r fr criteria given f = (f', inl l) ->
    exists cs, matching fr criteria cs /\ (cs <> [] \/ given <> []) /\
      (cs <> [] -> given <> [] -> NoDup l /\ forall i, In i l <-> In i cs /\ In i given) /\
      (cs <> [] -> given = [] -> l = cs) /\
      (cs = [] -> l = given) /\
      exp_all d r l f = (f', inl tt).
  Proof.
    unfold export_scenarios_filter, select. intros E.
    assert (M : exists cs, matching fr criteria cs /\
      found_by srt fr criteria = inl cs).
    { destruct criteria as [|k cr]; [exists []; split; [now left|reflexivity]|]. unfold found_by in *.
      destruct (find_configs V srt fr (k :: cr) [] [] []) as [cs|] eqn:F; [|discriminate]. exists cs. split; auto.
      right. split; [discriminate|]. unfold find_configs in F. destruct (apply_criteria V fr (k :: cr) (f_rows V fr)) as [ro|] eqn:A; [|discriminate].
      apply apply_criteria_ok in A. cbn [nonempty negb orb] in F. destruct (_ && _) in F; [|discriminate]. inversion F; subst.
      exists (fitsb (k :: cr)). split; auto. apply fitsb_fits. }
    destruct M as (cs & M & Q). rewrite Q in E. exists cs. split; auto.
    assert (Fin : forall l0, (match exp_all d r l0 f with (f2, inl _) => (f2, inl l0) | (f2, inr e) => (f2, inr e) end = (f', inl l)) ->
      l0 = l /\ exp_all d r l0 f = (f', inl tt)).
    { intros l0 X. destruct (exp_all d r l0 f) as [g [[]|e]]; inversion X; subst; auto. }
    destruct cs as [|a cs], given as [|b gv]; cbv beta iota in E; [discriminate| | |]; apply Fin in E as (<- & E).
    - split; [right; discriminate|]. split; [congruence|]. split; [congruence|]. auto.
    - split; [left; discriminate|]. split; [congruence|]. split; [auto|]. split; [congruence|auto].
    - split; [left; discriminate|]. split; [|split; [discriminate|split; [discriminate|exact E]]].
      intros _ _. match goal with |- context [set_order ?x] => destruct (set_walk x) as (N & I) end. split; auto.
      intros i. rewrite I. change (In i (filter (fun i => isinz i (b :: gv)) (a :: cs)) <-> In i (a :: cs) /\ In i (b :: gv)).
      rewrite filter_In, isinz_iff. reflexivity.
  Qed.
  (* neither a match nor a list of configs: refused, nothing written *)
  Theorem C102_nothing_selected_is_refused d r fr criteria f : found_by srt fr criteria = inl [] ->
    exp_filter d r fr criteria [] f = (f, inr ValueError).
  Proof. intros E. unfold export_scenarios_filter. now rewrite E. Qed.

  (* --- how much of a run the histories hold --- *)
  Lemma skipn_tl {A} n (l : list A) : skipn (S n) l = tl (skipn n l).
  Proof. revert l. induction n; intros [|x l]; cbn [skipn tl] in *; auto. Qed.
  Theorem C102_history_is_the_end_of_the_run m s0 steps :
    history_after m s0 steps = skipn (S (length steps) - Nat.max m 1) (s0 :: steps).
  Proof.
    unfold history_after. induction steps as [|s steps IH] using rev_ind.
    - cbn [fold_left length]. replace (1 - Nat.max m 1) with 0 by lia. reflexivity.
    - rewrite fold_left_app, IH. cbn [fold_left]. rewrite app_length. cbn [length]. unfold push_state.
      remember (S (length steps) - Nat.max m 1) as k eqn:Ek. assert (Hk : k <= length (s0 :: steps)) by (cbn [length]; lia).
      assert (E : skipn k (s0 :: steps) ++ [s] = skipn k (s0 :: steps ++ [s])).
      { change (s0 :: steps ++ [s]) with ((s0 :: steps) ++ [s]). rewrite skipn_app. replace (k - length (s0 :: steps)) with 0 by lia. reflexivity. }
      rewrite E. rewrite skipn_length. cbn [length]. rewrite app_length. cbn [length].
      destruct (Nat.ltb_spec m (S (length steps + 1) - k)) as [Lt|Ge].
      + rewrite <- skipn_tl. f_equal. lia.
      + f_equal. lia.
  Qed.
  Theorem C102_trajectories_cover_the_run_refuted m s0 steps : NoDup (s0 :: steps) -> 1 <= m <= length steps ->
    length (history_after m s0 steps) = m /\ ~ In s0 (history_after m s0 steps).
  Proof.
    intros ND L. rewrite C102_history_is_the_end_of_the_run. split.
    - rewrite skipn_length. cbn [length]. lia.
    - replace (S (length steps) - Nat.max m 1) with (S (length steps - m)) by lia. cbn [skipn]. inversion ND as [|? ? N _]; subst.
      intros I. apply N. rewrite <- (firstn_skipn (length steps - m) steps). apply in_or_app. now right.
  Qed.
End C102.

(* --- a concrete case: two configs with histories, the second world also has agent 7; the same map file name in two folders --- *)
Definition toy_world (s : nat) : option (list (N * list state)) :=
  match s with
  | 0 => None
  | 1 => Some [(3%N, [[0; 1; 2; 3; 4]%Q; [1; 2; 2; 3; 4]%Q])]
  | _ => Some [(3%N, [[1; 2; 2; 3; 4]%Q]); (7%N, [[1; 5; 6; 7; 8]%Q])]
  end.
Definition toy_map_name (p : nat) : option string :=
  match p with 0 => None | 1 => Some "a/m.xodr"%string | _ => Some "b/m.xodr"%string end.
Definition toy_map_text (s : string) : option nat :=
  if String.eqb s "a/m.xodr" then Some 10 else if String.eqb s "b/m.xodr" then Some 20 else None.
Definition toy_basename (s : string) : string := "m.xodr".
Definition toy_res : result (Scen:=nat) (Par:=nat) :=
  mkRes (fun i => if Z.eqb i 4 then Some [1] else if Z.eqb i 5 then Some [1; 2] else if Z.eqb i 6 then Some [] else None)
        [(4%Z, 1); (5%Z, 2); (8%Z, 0)].
Notation toy_export d := (export_all toy_world toy_map_name toy_map_text toy_basename d toy_res).
Definition toy_fs : fsys (Par:=nat) (Txt:=nat) := fun _ => None.

Example C102_nonvacuous_csv : csv_exportable toy_world toy_map_name toy_map_text toy_res 4 /\ csv_exportable toy_world toy_map_name toy_map_text toy_res 5.
Proof.
  split.
  - apply (C102_csv_export_succeeds_iff toy_world toy_map_name toy_map_text toy_basename toy_res 4 toy_fs).
    eexists. vm_compute. reflexivity.
  - apply (C102_csv_export_succeeds_iff toy_world toy_map_name toy_map_text toy_basename toy_res 5 toy_fs).
    eexists. vm_compute. reflexivity.
Qed.
Example C102_nonvacuous_tables :
  let f := fst (toy_export (write_trajectory toy_world) [4; 5]%Z toy_fs) in
  f (InFolder 5 "trajectories.csv") = Some (Rows [mkTR 3 1 2 2 3 4; mkTR 7 1 5 6 7 8]) /\ f (Folder 6) = None.
Proof. vm_compute. auto. Qed.
(* nothing is known about config 9: an empty folder *)
Example C102_nonvacuous_unknown_config :
  csv_exportable toy_world toy_map_name toy_map_text toy_res 9 /\ forall p c, csv_file toy_world toy_map_name toy_map_text toy_basename toy_res 9 p c -> p = Folder 9.
Proof.
  assert (NC : forall p, ~ config_of toy_res 9 p).
  { intros p. apply get_config_none. reflexivity. }
  split; [split; [intros p C; exfalso; eapply NC; eauto|now left]|].
  intros p c [p' c' C|w (h & s & E & _)]; [|vm_compute in E; discriminate]. inversion C; subst; auto; exfalso; eapply NC; eauto.
Qed.
(* an empty history or a config of another scenario generation cannot be exported *)
Example C102_nonvacuous_failures :
  snd (toy_export (write_trajectory toy_world) [6]%Z toy_fs) = inr IndexError /\
  snd (toy_export (write_trajectory toy_world) [8]%Z toy_fs) = inr KeyError.
Proof. vm_compute. auto. Qed.
Example C102_nonvacuous_openscenario :
  ids_unique toy_world /\
  fst (toy_export (write_openscenario toy_world) [5]%Z toy_fs) (Trajectory 5 7) = Some (Vertices [mkVx 1 5 6 0 7]).
Proof.
  split; [|vm_compute; reflexivity]. intros [|[|s]] w E; inversion E; subst; cbn.
  - repeat constructor; cbn; intuition discriminate.
  - repeat constructor; cbn; intuition discriminate.
Qed.
(* each exported config keeps the map it was run on: false, maps with the same file name overwrite each other *)
Theorem C102_every_config_keeps_its_map_refuted :
  let f := fst (toy_export (write_trajectory toy_world) [4; 5]%Z toy_fs) in
  snd (toy_export (write_trajectory toy_world) [4; 5]%Z toy_fs) = inl tt /\
  config_of toy_res 4 1 /\ toy_map_name 1 = Some "a/m.xodr"%string /\ toy_map_text "a/m.xodr" = Some 10 /\
  forall p, f p <> Some (MapText 10).
Proof.
  split; [vm_compute; reflexivity|]. split; [exists [], [(5%Z, 2); (8%Z, 0)]; cbn; auto|].
  split; [reflexivity|]. split; [reflexivity|].
  intros p. assert (E : exists l, fst (toy_export (write_trajectory toy_world) [4; 5]%Z toy_fs) = fold_left (fun g w => write (fst w) (snd w) g) l toy_fs
     /\ l = [(Folder 4, IsFolder); (InFolder 4 "trajectories.csv", Rows [mkTR 3 0 1 2 3 4; mkTR 3 1 2 2 3 4]);
             (InFolder 4 "scenario_parameters.json", Params 1); (AtRoot "m.xodr", MapText 10);
             (Folder 5, IsFolder); (InFolder 5 "trajectories.csv", Rows [mkTR 3 1 2 2 3 4; mkTR 7 1 5 6 7 8]);
             (InFolder 5 "scenario_parameters.json", Params 2); (AtRoot "m.xodr", MapText 20)]).
  { eexists. split; [|reflexivity]. reflexivity. }
  destruct E as (l & -> & ->). cbn [fold_left fst snd]. unfold write at 1. destruct (path_eqb_spec (AtRoot "m.xodr") p) as [<-|N]; [congruence|].
  do 3 (unfold write at 1; destruct (path_eqb _ p); [discriminate|]).
  rewrite write_other by exact N.
  do 3 (unfold write at 1; destruct (path_eqb _ p); [discriminate|]). discriminate.
Qed.
(* with both a filter and a list, only configs that pass the filter are exported: false if none passes *)
Definition toy_frame : frame nat := mkFrame nat ["config_idx"; "step"]%string [Model_Analyzer.mkRow nat 4 0 "s" (fun _ => 1); Model_Analyzer.mkRow nat 5 0 "s" (fun _ => 2)].
Theorem C102_filter_restricts_the_list_refuted :
  exists criteria f', export_scenarios_filter toy_world toy_map_name toy_map_text toy_basename (nodup Z.eq_dec) (map snd)
      (write_trajectory toy_world) toy_res toy_frame criteria [4; 5]%Z toy_fs = (f', inl [4; 5]%Z) /\
    criteria <> [] /\ forall w, In w (f_rows nat toy_frame) -> ~ fits criteria w.
Proof.
  exists [("step"%string, fun v => Some (Nat.eqb v 3))]. eexists. split; [vm_compute; reflexivity|]. split; [discriminate|].
  intros w I F. specialize (F _ _ (or_introl eq_refl)). cbn in I. destruct I as [<-|[<-|[]]]; discriminate F.
Qed.
Example C102_nonvacuous_filter :
  snd (export_scenarios_filter toy_world toy_map_name toy_map_text toy_basename (nodup Z.eq_dec) (map snd)
      (write_trajectory toy_world) toy_res toy_frame [("step"%string, fun v => Some (Nat.ltb 1 v))] [4; 5]%Z toy_fs) = inl [5]%Z /\
  forall l, NoDup (nodup Z.eq_dec l) /\ forall x, In x (nodup Z.eq_dec l) <-> In x l.
Proof. split; [vm_compute; reflexivity|]. intros l. split; [apply NoDup_nodup|]. intros x. apply nodup_In. Qed.
Example C102_nonvacuous_history : history_after 2 [0%Q] [[1%Q]; [2%Q]; [3%Q]] = [[2%Q]; [3%Q]] /\ NoDup [[0%Q]; [1%Q]; [2%Q]; [3%Q]].
Proof. split; [reflexivity|]. repeat constructor; cbn; intuition discriminate. Qed.

Print Assumptions C102_csv_export_leaves_these_files.
Print Assumptions C102_csv_export_succeeds_iff.
Print Assumptions C102_openscenario_export_leaves_these_files.
Print Assumptions C102_openscenario_export_succeeds_iff.
Print Assumptions C102_csv_several.
Print Assumptions C102_openscenario_several.
Print Assumptions C102_csv_stops_at_the_first_failure.
Print Assumptions C102_exported_configs.
Print Assumptions C102_history_is_the_end_of_the_run.
Print Assumptions C102_every_config_keeps_its_map_refuted.
Print Assumptions C102_filter_restricts_the_list_refuted.
