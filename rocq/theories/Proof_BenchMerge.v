(** Merging checkpoints and running on several actors. *)
From Coq Require Import List Arith Lia Bool Permutation.
Import ListNotations.
From Verif Require Import Model_Benchmark Proof_Benchmark.

Section P.
Context {C D H : Type}.
Notation conf := (conf C). Notation row := (row D). Notation fs := (fs C D H).
Notation bres := (bres C D H). Notation member := (member C H).
Notation item := (item C H). Notation zip := (zip C D H).
Notation M := (M C D H).
Variable nfiles : kind -> list (nat * item) -> nat.

(** ** What a successful extend did *)

Lemma write_zip_eq (p : path) (z : zip) f :
  write_zip p z f = ([upd f p (Some Corrupt); upd (upd f p (Some Corrupt)) p (Some (Zip z))],
                     upd (upd f p (Some Corrupt)) p (Some (Zip z)), inl tt).
Proof. reflexivity. Qed.

Lemma remove_results_frame p (f : fs) t f' r :
  remove_results (Some p) f = (t, f', r) -> agree_off p f f'.
Proof.
  unfold remove_results, bind, get, ret, raise, step. simpl.
  destruct (f p) as [[|z]|]; [intros E; inversion E; intros x _; reflexivity| |
    intros E; inversion E; intros x _; reflexivity].
  destruct (z_res z); intros E; inversion E; subst.
  - intros x N. apply upd_other. congruence.
  - intros x _; reflexivity.
Qed.

Lemma dump_frame (b : bres) p dc dh (f : fs) t f' r :
  b_file b = Some p -> dump nfiles b p dc dh true f = (t, f', r) ->
  agree_off p f f' /\
  (forall b', r = inl b' ->
     b_file b' = Some p /\ b_dicts b' = b_dicts b /\ b_df b' = Some (get_data_frame b) /\
     exists z, f' p = Some (Zip z) /\ z_res z = Some (get_data_frame b)).
Proof.
  intros Fp. unfold dump. unfold bind at 1, get at 1. rewrite Fp. cbv beta iota.
  rewrite path_eqb_refl. cbn [negb andb].
  unfold bind at 1, ret at 1. unfold bind at 1.
  destruct (remove_results (Some p) f) as [[t1 f1] r1] eqn:E1.
  assert (A1 := remove_results_frame _ _ _ _ _ E1).
  destruct r1 as [u|e].
  2:{ intros E; inversion E; subst. split; auto. intros b' Eb; discriminate. }
  unfold bind at 1, get at 1. unfold bind at 1.
  destruct (f1 p) as [[|z]|] eqn:Ep.
  - unfold raise. intros E; inversion E; subst. split; auto. intros b' Eb; discriminate.
  - unfold ret at 1.
    destruct (dump_kind nfiles dc Configs (conf_items (b_confs b)) (z_mem z)) as [m1 e1].
    destruct (match e1 with None => _ | Some e => _ end) as [m2 e2].
    unfold bind at 1. rewrite write_zip_eq.
    destruct e2; unfold raise, ret; intros E; inversion E; subst; split.
    + intros x N. rewrite !upd_other by congruence. apply A1; auto.
    + intros b' Eb; discriminate.
    + intros x N. rewrite !upd_other by congruence. apply A1; auto.
    + intros b' Eb. injection Eb as <-. simpl. repeat split; auto.
      eexists. rewrite upd_same. split; [reflexivity|reflexivity].
  - unfold ret at 1.
    destruct (dump_kind nfiles dc Configs (conf_items (b_confs b)) []) as [m1 e1].
    destruct (match e1 with None => _ | Some e => _ end) as [m2 e2].
    unfold bind at 1. rewrite write_zip_eq.
    destruct e2; unfold raise, ret; intros E; inversion E; subst; split.
    + intros x N. rewrite !upd_other by congruence. apply A1; auto.
    + intros b' Eb; discriminate.
    + intros x N. rewrite !upd_other by congruence. apply A1; auto.
    + intros b' Eb. injection Eb as <-. simpl. repeat split; auto.
      eexists. rewrite upd_same. split; [reflexivity|reflexivity].
Qed.

Lemma self1_df (self other : bres) (c : list conf) (h : list (nat * H)) :
  get_data_frame {| b_dicts := b_dicts self ++ get_result_dict (touch other);
                    b_df := Some (get_data_frame self ++ get_data_frame other);
                    b_confs := c; b_hist := h; b_file := b_file self |}
  = get_data_frame self ++ get_data_frame other.
Proof.
  unfold get_data_frame at 1; cbn [b_df b_dicts].
  destruct (Nat.ltb_spec (length (get_data_frame self ++ get_data_frame other))
     (length (b_dicts self ++ get_result_dict (touch other)))); auto.
  exfalso. rewrite !app_length in *.
  generalize (dicts_le self), (result_dict_le other). lia.
Qed.

(** file-level extend: frame, and what a success means *)
Lemma extend_spec (self other : bres) p (f : fs) t f' r :
  b_file self = Some p -> extend nfiles self other true f = (t, f', r) ->
  agree_off p f f' /\
  (forall self', r = inl self' ->
     (get_indices other = [] /\ self' = self /\ f' = f) \/
     (get_indices other <> [] /\
      (forall i, In i (get_indices other) -> In i (get_indices self) -> False) /\
      get_data_frame self' = get_data_frame self ++ get_data_frame other /\
      b_file self' = Some p /\
      exists z, f' p = Some (Zip z) /\ z_res z = Some (get_data_frame self'))).
Proof.
  intros Fp. unfold extend.
  destruct (get_indices other) as [|i0 is] eqn:Ei.
  { unfold ret. intros E; inversion E; subst. split; [intros x _; reflexivity|].
    intros s' Es; injection Es as <-. auto. }
  destruct (overlapb (i0 :: is) (get_indices self)) eqn:Eo.
  { unfold raise. intros E; inversion E; subst. split; [intros x _; reflexivity|].
    intros s' Es; discriminate. }
  rewrite overlapb_false in Eo. rewrite Fp. unfold bind at 1.
  destruct (remove_results (Some p) f) as [[t1 f1] r1] eqn:E1.
  assert (A1 := remove_results_frame _ _ _ _ _ E1).
  destruct r1 as [u|e].
  2:{ intros E; inversion E; subst. split; auto. intros b' Eb; discriminate. }
  unfold bind at 1.
  match goal with |- context [dump nfiles ?s p true true true f1] => set (self1 := s) end.
  destruct (dump nfiles self1 p true true true f1) as [[t2 f2] r2] eqn:E2.
  assert (Fs : b_file self1 = Some p) by reflexivity.
  destruct (dump_frame self1 p true true f1 t2 f2 r2 Fs E2) as [A2 B2].
  assert (A12 : agree_off p f f2) by (eapply agree_trans; eauto).
  destruct r2 as [self2|e].
  2:{ intros E; inversion E; subst. split; auto. intros b' Eb; discriminate. }
  destruct (B2 self2 eq_refl) as (F2 & D2 & Df2 & z2 & P2 & R2).
  assert (G1 : get_data_frame self1 = get_data_frame self ++ get_data_frame other).
  { unfold self1. rewrite <- Fp. apply self1_df. }
  assert (G2 : get_data_frame self2 = get_data_frame self ++ get_data_frame other).
  { rewrite <- G1. unfold get_data_frame at 1. rewrite Df2, D2.
    destruct (Nat.ltb_spec (length (get_data_frame self1)) (length (b_dicts self1))); auto.
    generalize (dicts_le self1). lia. }
  destruct (b_file other) as [q|].
  2:{ unfold raise. intros E; inversion E; subst. split; auto. intros b' Eb; discriminate. }
  unfold bind at 1, get at 1.
  destruct (f2 q) as [[|zq]|];
    try (unfold raise; intros E; inversion E; subst; split; auto; intros b' Eb; discriminate).
  rewrite P2.
  destruct (move_files Configs (z_mem zq) (z_mem z2)) as [m1 e1].
  destruct (if e1 then (m1, true) else move_files Histories (z_mem zq) m1) as [m2 e2].
  unfold bind at 1. rewrite write_zip_eq.
  assert (AU : agree_off p f (upd (upd f2 p (Some Corrupt)) p (Some (Zip {| z_res := z_res z2; z_mem := m2 |})))).
  { intros x N. rewrite !upd_other by congruence. auto. }
  destruct e2; unfold raise, ret; intros E; inversion E; subst; split; auto; intros s' Es;
    [discriminate|]. injection Es as <-.
  right. split; [discriminate|]. split; auto. split; auto. split; auto.
  eexists. rewrite upd_same. split; [reflexivity|]. simpl. rewrite R2, G2, G1. reflexivity.
Qed.

(** ** Soundness of merging: when it returns, nothing is missing or double *)

Definition disjoint_rows (a b : list row) : Prop :=
  forall i, In i (map r_idx a) -> In i (map r_idx b) -> False.

Definition reads (f : fs) (p : path) (d : list row) : Prop :=
  exists z, f p = Some (Zip z) /\ z_res z = Some d.

Lemma load_inv p (f : fs) t f' b :
  load_results p f = (t, f', inl (Some b)) ->
  t = [] /\ f' = f /\ exists d, reads f p d /\ get_data_frame b = d /\ b_confs b = [] /\
    b_file b = Some p.
Proof.
  unfold load_results, bind, get, ret, raise, reads.
  destruct (f p) as [[|z]|] eqn:Ep; simpl; try discriminate.
  destruct (z_res z) as [d|] eqn:Er; try discriminate.
  intros E. inversion E; subst. split; auto. split; auto.
  exists d. split; [eexists; split; eauto|]. repeat split.
Qed.

Lemma get_indices_rows (b : bres) d : get_data_frame b = d -> b_confs b = [] ->
  get_indices b = map r_idx d.
Proof. unfold get_indices. intros -> ->. destruct d; reflexivity. Qed.

Lemma merge_loop_sound g : forall (f : fs) (m : bres) t f' m',
  ~ In PMerged g -> b_file m = Some PMerged ->
  merge_loop nfiles g (Some m) f = (t, f', inl m') ->
  exists b ds, m' = Some b /\ Forall2 (reads f) g ds /\
    get_data_frame b = get_data_frame m ++ concat ds /\
    (forall i, In i (map r_idx (concat ds)) -> In i (map r_idx (get_data_frame m)) -> False) /\
    ForallOrdPairs disjoint_rows ds /\ agree_off PMerged f f'.
Proof.
  induction g as [|p g IH]; intros f m t f' m' Np Fm; simpl.
  - unfold ret. intros E; inversion E; subst. exists m, []. rewrite app_nil_r.
    repeat split; auto; try constructor.
  - unfold bind at 1. destruct (load_results p f) as [[t1 f1] [[l|]|e]] eqn:El; try discriminate.
    apply load_inv in El as (-> & -> & d & Rd & Gl & Cl & Fl).
    unfold bind at 1. destruct (extend nfiles m l true f) as [[t2 f2] [m2|e]] eqn:Ee; [|discriminate].
    destruct (extend_spec m l PMerged f t2 f2 (inl m2) Fm Ee) as [A2 S2].
    specialize (S2 m2 eq_refl).
    destruct (merge_loop nfiles g (Some m2) f2) as [[t3 f3] [m3|e]] eqn:Em; [|discriminate].
    intros E; inversion E; subst; clear E.
    assert (Fm2 : b_file m2 = Some PMerged).
    { destruct S2 as [(_ & -> & _)|(_ & _ & _ & F2 & _)]; auto. }
    destruct (IH f2 m2 t3 f' m') as (b & ds & -> & F2 & Gb & Dj & Pw & A3); auto.
    { simpl in Np; tauto. }
    exists b, (get_data_frame l :: ds). split; auto.
    assert (F2' : Forall2 (reads f) g ds).
    { clear - F2 A2 Np. induction F2; constructor; auto.
      - destruct H0 as (z & Ez & Er). exists z. split; auto. rewrite <- A2; auto.
        intros ->. apply Np; simpl; auto.
      - apply IHF2. simpl in *; tauto. }
    split; [constructor; auto|].
    assert (G2 : get_data_frame m2 = get_data_frame m ++ get_data_frame l).
    { destruct S2 as [(Ei & -> & _)|(_ & _ & G2 & _)]; auto.
      rewrite (get_indices_rows l _ eq_refl Cl) in Ei. apply map_eq_nil in Ei. rewrite Ei.
      now rewrite app_nil_r. }
    assert (D2 : disjoint_rows (get_data_frame l) (get_data_frame m)).
    { destruct S2 as [(Ei & _)|(_ & Dd & _)].
      - rewrite (get_indices_rows l _ eq_refl Cl) in Ei. intros i Ii. rewrite Ei in Ii. destruct Ii.
      - rewrite (get_indices_rows l _ eq_refl Cl) in Dd. intros i Ii Ij. apply (Dd i Ii).
        unfold get_indices. destruct (get_data_frame m); [destruct Ij|auto]. }
    rewrite G2 in Gb, Dj.
    split; [rewrite Gb; simpl; now rewrite app_assoc|].
    split.
    { simpl. intros i I J. rewrite map_app in I. apply in_app_iff in I as [I|I].
      - apply (D2 i I J).
      - apply (Dj i I). rewrite map_app. apply in_or_app; auto. }
    split.
    { constructor; auto. apply Forall_forall. intros d' Id' i I J. apply (Dj i).
      - apply in_map_iff in J as (rw & <- & J). apply in_map. apply in_concat; eauto.
      - rewrite map_app. apply in_or_app; auto. }
    eapply agree_trans; eauto.
Qed.

(** ** Success of merging *)

Lemma fop_app_l {A} (Rl : A -> A -> Prop) a b : ForallOrdPairs Rl (a ++ b) -> ForallOrdPairs Rl a.
Proof.
  induction a; simpl; intros F; constructor; inversion F; subst; auto.
  apply Forall_app in H2; tauto.
Qed.

Lemma merge_loop_ok g : forall (f : fs) (m : bres) d0 ds,
  nfiles_ok nfiles -> ~ In PMerged g ->
  b_file m = Some PMerged -> b_confs m = [] -> b_hist m = [] -> get_data_frame m = d0 ->
  valid f PMerged d0 ->
  Forall2 (fun p d => exists z, f p = Some (Zip z) /\ wf_zip z d) g ds ->
  NoDup (map r_idx (d0 ++ concat ds)) ->
  exists t f' b, merge_loop nfiles g (Some m) f = (t, f', inl (Some b)) /\
    agree_off PMerged f f' /\ get_data_frame b = d0 ++ concat ds /\
    b_file b = Some PMerged /\ b_confs b = [] /\ b_hist b = [] /\
    valid f' PMerged (d0 ++ concat ds) /\
    Forall (fun s => agree_off PMerged f s) t.
Proof.
  induction g as [|p g IH]; intros f m d0 ds NF Np Fm Cm Hm Gm Vm F2 ND.
  - inversion F2; subst. simpl. rewrite app_nil_r in *. exists [], f, m.
    repeat split; auto.
  - inversion F2 as [|? d ? ds' (z & Ez & Wz) F2']; subst. cbn [merge_loop].
    destruct Wz as (Wr & Wn & Wk).
    set (l := {| b_dicts := []; b_df := Some d; b_confs := []; b_hist := []; b_file := Some p |}
          : bres).
    assert (El : load_results p f = ([], f, inl (Some l))).
    { unfold load_results, bind, get, ret. rewrite Ez, Wr. reflexivity. }
    unfold bind at 1. rewrite El.
    assert (Gl : get_data_frame l = d) by reflexivity.
    assert (Il : get_indices l = map r_idx d) by (apply get_indices_rows; auto).
    assert (ND2 := ND). rewrite map_app in ND2. apply NoDup_app_inv in ND2 as (ND0 & NDc & Dd).
    simpl in NDc, Dd. rewrite map_app in NDc.
    assert (Cd : d = [] \/ d <> []) by (destruct d; [left|right]; congruence).
    destruct Cd as [Ed|Nd].
    + unfold bind at 1. rewrite extend_nothing by (rewrite Il, Ed; reflexivity).
      rewrite Ed in *.
      destruct (IH f m (get_data_frame m) ds' NF) as (t & f' & b & E & R1); auto.
      { simpl in Np; tauto. }
      simpl. rewrite E. exists t, f', b. split; [reflexivity|]. exact R1.
    + assert (HM : exists ms, has_members f PMerged ms /\ ne_members ms /\
                    incl (map fst (payload ms)) (map r_idx (get_data_frame m))).
      { destruct Vm as [[E0 Em]|(zm & Em & (Vr & Vn & Vk))].
        - exists []. split; [left; auto|]. split; [intros x []|intros x []].
        - exists (z_mem zm). split; [|auto]. right. exists (Some (get_data_frame m)).
          rewrite Em, <- Vr. destruct zm; reflexivity. }
      destruct HM as (ms & HM & Nms & Kms).
      assert (Is : get_indices m = map r_idx (get_data_frame m)) by (apply get_indices_rows; auto).
      destruct (extend_ok nfiles m l f PMerged p ms z)
        as (t2 & f2 & m2 & E2 & A2 & P2 & G2 & _ & Bf & Bc & Bh & Tr); auto.
      { rewrite Il. destruct d; [congruence|discriminate]. }
      { intros i I J. rewrite Il in I. rewrite Is in J. apply (Dd i J).
        rewrite map_app. apply in_or_app; auto. }
      { intros ->. apply Np; simpl; auto. }
      { apply names_disjoint_keys; auto. intros i I J. apply Kms in I. apply Wk in J.
        apply (Dd i I). rewrite map_app. apply in_or_app; auto. }
      unfold bind at 1. rewrite E2.
      rewrite Gl in *.
      destruct (IH f2 m2 (get_data_frame m ++ d) ds' NF) as (t & f' & b & E & A3 & G3 & R3); auto.
      { simpl in Np; tauto. }
      { right. eexists. split; [exact P2|]. repeat split; auto.
        - intros x I. simpl in I. apply in_app_iff in I as [I|I]; auto.
          apply in_app_iff in I as [I|I]; apply of_kind_in in I as [I _]; auto.
        - intros i I. simpl in I. rewrite payload_app, map_app in I. rewrite map_app, in_app_iff.
          apply in_app_iff in I as [I|I]; [left; auto|right]. apply Wk.
          eapply Permutation_in; [|exact I]. apply Permutation_map. rewrite payload_app.
          symmetry. apply payload_kinds. }
      { clear - F2' A2 Np. induction F2'; constructor.
        - destruct H0 as (z & Ez & W). exists z. split; auto. rewrite A2; auto.
          intros ->. apply Np; simpl; auto.
        - apply IHF2'. simpl in *; tauto. }
      { rewrite <- app_assoc. exact ND. }
      rewrite E. exists (t2 ++ t), f', b. split; [reflexivity|].
      split; [eapply agree_trans; eauto|]. split; [rewrite G3; simpl; now rewrite <- app_assoc|].
      destruct R3 as (Rf & Rc & Rh & Rv & Rt). repeat (split; auto).
      * simpl concat. rewrite app_assoc. exact Rv.
      * apply Forall_app. split.
        -- eapply Forall_impl; [|exact Tr]. intros s [A _]; exact A.
        -- eapply Forall_impl; [|exact Rt]. intros s A. eapply agree_trans; eauto.
Qed.

Lemma delete_loop_ok g : forall (f : fs),
  exists t f', delete_loop g f = (t, f', inl tt) /\
    (forall x, f' x = if in_dec (fun a b => match path_eqb a b as e return path_eqb a b = e -> {a=b}+{a<>b}
                                            with true => fun h => left (proj1 (path_eqb_eq a b) h)
                                               | false => fun h => right (proj1 (path_eqb_neq a b) h) end eq_refl) x g
                      then (match x with PMerged => f x | _ => None end) else f x) /\
    Forall (fun s => s PMerged = f PMerged) t.
Proof.
  induction g as [|p g IH]; intros f.
  - exists [], f. split; [reflexivity|]. split; [intros; reflexivity|constructor].
  - assert (Cp : p = PMerged \/ p <> PMerged) by (destruct p; [left|right|right]; congruence).
    destruct Cp as [->|Np].
    + cbn [delete_loop]. destruct (IH f) as (t & f' & E & Hx & Ht). exists t, f'. split; [exact E|].
      split; auto. intros x. rewrite Hx.
      destruct (in_dec _ x g) as [i|i], (in_dec _ x (PMerged :: g)) as [j|j]; auto.
      * exfalso; apply j; simpl; auto.
      * destruct j as [<-|j]; [reflexivity|contradiction].
    + assert (E0 : delete_loop (p :: g) f =
         bind (step (fun f => upd f p None)) (fun _ => delete_loop g) f)
        by (destruct p; [congruence|reflexivity|reflexivity]).
      rewrite E0. unfold bind, step.
      destruct (IH (upd f p None)) as (t & f' & E & Hx & Ht). rewrite E.
      eexists _, _. split; [reflexivity|]. split.
      * intros x. rewrite Hx.
        destruct (in_dec _ x g) as [i|i], (in_dec _ x (p :: g)) as [j|j].
        -- destruct x; auto. apply upd_other. auto.
        -- exfalso; apply j; simpl; auto.
        -- destruct j as [<-|j]; [|contradiction]. rewrite upd_same. destruct p; congruence.
        -- apply upd_other. intros ->. apply j; simpl; auto.
      * constructor.
        -- apply upd_other; auto.
        -- eapply Forall_impl; [|exact Ht]. intros s ->. apply upd_other; auto.
Qed.

Lemma delete_loop_spec g (f : fs) :
  (forall x, f x <> None -> In x (PMerged :: g)) ->
  exists t f', delete_loop g f = (t, f', inl tt) /\ f' PMerged = f PMerged /\
    (forall x, x <> PMerged -> f' x = None) /\ Forall (fun s => s PMerged = f PMerged) t.
Proof.
  intros Hf. destruct (delete_loop_ok g f) as (t & f' & E & Hx & Ht).
  exists t, f'. split; auto. split; [|split; auto].
  - rewrite Hx. destruct (in_dec _ _ _); auto.
  - intros x N. rewrite Hx. destruct (in_dec _ x g) as [i|i].
    + destruct x; congruence.
    + destruct (f x) eqn:E1; auto. exfalso.
      assert (I : In x (PMerged :: g)) by (apply Hf; congruence). destruct I; auto.
Qed.

Lemma merge_ok (f : fs) g ds :
  nfiles_ok nfiles -> f PMerged = None -> glob_of f g ->
  Forall2 (fun p d => exists z, f p = Some (Zip z) /\ wf_zip z d) g ds ->
  NoDup (map r_idx (concat ds)) ->
  exists t f' b, merge_checkpoints nfiles g f = (t, f', inl (Some b)) /\
    get_data_frame b = concat ds /\ b_file b = Some PMerged /\ b_confs b = [] /\
    valid f' PMerged (concat ds) /\ (forall x, x <> PMerged -> f' x = None) /\
    Forall (fun s => agree_off PMerged f s \/ valid s PMerged (concat ds)) t.
Proof.
  intros NF Fm (NDg & Hg) F2 ND.
  assert (Np : ~ In PMerged g) by (intros I; apply Hg in I; congruence).
  unfold merge_checkpoints. unfold bind at 1, get at 1. rewrite Fm.
  unfold bind at 1, ret at 1. unfold bind at 1.
  destruct (merge_loop_ok g f (fresh_result PMerged) [] ds NF Np)
    as (t & f1 & b & E & A & G & Bf & Bc & Bh & V & Tr); auto.
  { left; auto. }
  rewrite E. unfold bind at 1.
  destruct (delete_loop_spec g f1) as (t2 & f2 & E2 & Em & Eo & T2).
  { intros x N. destruct x; [left; auto| |]; right; apply Hg; rewrite <- A; auto; discriminate. }
  rewrite E2. unfold ret. eexists _, _, _. split; [reflexivity|].
  simpl in G, V. repeat (split; auto).
  - destruct V as [[Ea Eb]|(z & Ez & W)]; [left|right; exists z]; rewrite Em; auto.
  - simpl. rewrite !Forall_app. repeat split.
    + eapply Forall_impl; [|exact Tr]. auto.
    + eapply Forall_impl; [|exact T2]. intros s Es. right.
      destruct V as [[Ea Eb]|(z & Ez & W)]; [left|right; exists z]; rewrite Es; auto.
    + constructor.
Qed.

Lemma merge_sound (f : fs) g t f' m :
  f PMerged = None -> glob_of f g ->
  merge_checkpoints nfiles g f = (t, f', inl m) ->
  exists b ds, m = Some b /\ Forall2 (reads f) g ds /\ get_data_frame b = concat ds /\
    ForallOrdPairs disjoint_rows ds.
Proof.
  intros Fm (NDg & Hg).
  assert (Np : ~ In PMerged g) by (intros I; apply Hg in I; congruence).
  unfold merge_checkpoints. unfold bind at 1, get at 1. rewrite Fm.
  unfold bind at 1, ret at 1. unfold bind at 1.
  destruct (merge_loop nfiles g (Some (fresh_result PMerged)) f) as [[t1 f1] [m1|e]] eqn:E; [|discriminate].
  apply merge_loop_sound in E as (b & ds & -> & F2 & G & _ & Pw & _); auto.
  unfold bind. destruct (delete_loop_ok g f1) as (t2 & f2 & E2 & _). rewrite E2.
  unfold ret. intros E; inversion E; subst. exists b, ds. auto.
Qed.

(** A directory with a merged file that has rows cannot be merged again. *)
Lemma merge_loop_self g : forall (f : fs) (m : bres) t f' r z,
  In PMerged g -> b_file m = Some PMerged -> b_confs m = [] -> get_data_frame m <> [] ->
  f PMerged = Some (Zip z) -> z_res z = Some (get_data_frame m) ->
  merge_loop nfiles g (Some m) f = (t, f', r) -> exists e, r = inr e.
Proof.
  induction g as [|p g IH]; intros f m t f' r z Ip Fm Cm Gm Ez Er; [destruct Ip|].
  cbn [merge_loop]. unfold bind at 1.
  assert (Cp : p = PMerged \/ p <> PMerged) by (destruct p; [left|right|right]; congruence).
  destruct Cp as [->|Np].
  - set (l := {| b_dicts := []; b_df := Some (get_data_frame m); b_confs := []; b_hist := [];
                 b_file := Some PMerged |} : bres).
    assert (El : load_results PMerged f = ([], f, inl (Some l))).
    { unfold load_results, bind, get, ret. rewrite Ez, Er. reflexivity. }
    rewrite El. unfold bind at 1.
    destruct (get_data_frame m) as [|r0 rs] eqn:Eg; [congruence|].
    assert (Il : get_indices l = map r_idx (r0 :: rs)) by reflexivity.
    assert (Is : get_indices m = map r_idx (r0 :: rs)) by (unfold get_indices; now rewrite Eg).
    rewrite (extend_overlap nfiles m l true f (r_idx r0)).
    + intros E; inversion E; eauto.
    + rewrite Il; simpl; auto.
    + rewrite Is; simpl; auto.
  - destruct Ip as [->|Ip]; [congruence|].
    destruct (load_results p f) as [[t1 f1] [[l|]|e]] eqn:El.
    + apply load_inv in El as (-> & -> & d & Rd & Gl & Cl & Fl).
      unfold bind at 1.
      destruct (extend nfiles m l true f) as [[t2 f2] [m2|e]] eqn:Ee.
      * destruct (extend_spec m l PMerged f t2 f2 (inl m2) Fm Ee) as [A2 S2].
        assert (Cm2 : b_confs m2 = []).
        { clear - Ee Cm. unfold extend in Ee. destruct (get_indices l); [inversion Ee; subst; auto|].
          destruct (overlapb _ _); [discriminate|]. unfold bind at 1 in Ee.
          destruct (remove_results (b_file m) f) as [[t1 f1] [u|e]]; [|discriminate].
          destruct (b_file m) as [p0|]; [|discriminate]. unfold bind at 1 in Ee.
          destruct (dump nfiles _ p0 true true true f1) as [[t3 f3] [s2|e]] eqn:Ed; [|discriminate].
          assert (Cs : b_confs s2 = []).
          { clear Ee. unfold dump, bind, get in Ed. cbv beta iota in Ed.
            cbn [b_file b_confs b_hist] in Ed. rewrite path_eqb_refl in Ed. cbn [negb andb] in Ed.
            unfold ret at 1 in Ed. destruct (remove_results (Some p0) f1) as [[t4 f4] [u4|e4]]; [|discriminate].
            rewrite Cm in Ed.
            destruct (f4 p0) as [[|z4]|]; unfold raise, ret, write_zip, bind, step in Ed; simpl in Ed; try discriminate.
            - destruct (b_hist m); simpl in Ed; [inversion Ed; auto|].
              destruct (split nfiles Histories _); inversion Ed; auto.
            - destruct (b_hist m); simpl in Ed; [inversion Ed; auto|].
              destruct (split nfiles Histories _); inversion Ed; auto. }
          destruct (b_file l) as [q|]; [|discriminate]. unfold bind at 1, get at 1 in Ee.
          destruct (f3 q) as [[|zq]|]; try discriminate.
          destruct (f3 p0) as [[|zp]|]; try discriminate.
          destruct (move_files Configs (z_mem zq) (z_mem zp)) as [m1 e1].
          destruct (if e1 then _ else _) as [mm e2].
          unfold bind in Ee. rewrite write_zip_eq in Ee. destruct e2; [discriminate|].
          inversion Ee; subst; auto. }
        specialize (S2 m2 eq_refl).
        destruct (merge_loop nfiles g (Some m2) f2) as [[t3 f3] r3] eqn:Em.
        intros E. assert (r = r3) by (inversion E; auto). subst r3.
        destruct S2 as [(_ & -> & ->)|(_ & _ & G2 & F2 & z2 & Ez2 & Er2)].
        -- eapply IH; eauto.
        -- eapply IH; eauto. rewrite G2. intros En. apply app_eq_nil in En. tauto.
      * intros E; inversion E; eauto.
    + unfold raise. intros E; inversion E; eauto.
    + intros E; inversion E; eauto.
Qed.

Lemma merge_again_raises (f : fs) g z d :
  glob_of f g -> f PMerged = Some (Zip z) -> z_res z = Some d -> d <> [] ->
  exists e, outcome_of (merge_checkpoints nfiles g) f = inr e.
Proof.
  intros (NDg & Hg) Ez Er Nd.
  unfold outcome_of, merge_checkpoints. unfold bind at 1, get at 1. rewrite Ez.
  unfold bind at 1.
  set (l := {| b_dicts := []; b_df := Some d; b_confs := []; b_hist := [];
               b_file := Some PMerged |} : bres).
  assert (El : load_results PMerged f = ([], f, inl (Some l))).
  { unfold load_results, bind, get, ret. rewrite Ez, Er. reflexivity. }
  rewrite El. unfold bind at 1.
  destruct (merge_loop nfiles g (Some l) f) as [[t f'] r] eqn:Em.
  eapply merge_loop_self in Em as (e & ->); eauto.
  - simpl. eauto.
  - apply Hg. congruence.
Qed.

(** ** Interrupted runs *)

Section Run.
Variable exec : conf -> option (row * H).
Variable out : conf -> row * H.
Variable name : nat.
Variable history : bool.
Variable every : option nat.

Lemma glob_two (s : fs) g :
  glob_of s g -> (forall x, x <> PCkpt name -> x <> PTmp name -> s x = None) ->
  (s (PCkpt name) <> None -> s (PTmp name) <> None ->
     g = [PCkpt name; PTmp name] \/ g = [PTmp name; PCkpt name]) /\
  (s (PCkpt name) <> None -> s (PTmp name) = None -> g = [PCkpt name]) /\
  (s (PCkpt name) = None -> s (PTmp name) <> None -> g = [PTmp name]) /\
  (s (PCkpt name) = None -> s (PTmp name) = None -> g = []).
Proof.
  intros (ND & Hg) Ho.
  assert (Hin : forall x, In x g -> x = PCkpt name \/ x = PTmp name).
  { intros x I. apply Hg in I.
    destruct x as [|n|n].
    - exfalso; apply I, Ho; discriminate.
    - destruct (Nat.eq_dec n name) as [->|N]; auto. exfalso; apply I, Ho; congruence.
    - destruct (Nat.eq_dec n name) as [->|N]; auto. exfalso; apply I, Ho; congruence. }
  assert (Ic := Hg (PCkpt name)). assert (It := Hg (PTmp name)).
  destruct g as [|a [|b [|c r]]].
  - repeat split; intros; auto; exfalso; (apply Ic in H0 || apply It in H1); simpl in *; tauto.
  - destruct (Hin a) as [->| ->]; simpl; auto; repeat split; intros; auto; exfalso.
    + apply It in H1. destruct H1 as [E|[]]; discriminate.
    + apply It in H1. destruct H1 as [E|[]]; discriminate.
    + assert (In (PCkpt name) [PCkpt name]) by (simpl; auto). apply Ic in H2. congruence.
    + apply Ic in H0. destruct H0 as [E|[]]; discriminate.
    + assert (In (PTmp name) [PTmp name]) by (simpl; auto). apply It in H2. congruence.
    + assert (In (PTmp name) [PTmp name]) by (simpl; auto). apply It in H2. congruence.
  - inversion ND as [|? ? Na ND']; subst. simpl in Na.
    destruct (Hin a) as [->| ->], (Hin b) as [->| ->]; simpl; auto; try (exfalso; tauto);
    repeat split; intros; auto; exfalso.
    all: try (assert (I1 : In (PCkpt name) [PCkpt name; PTmp name]) by (simpl; auto); apply Ic in I1;
              assert (I2 : In (PTmp name) [PCkpt name; PTmp name]) by (simpl; auto); apply It in I2; congruence).
    all: try (assert (I1 : In (PCkpt name) [PTmp name; PCkpt name]) by (simpl; auto); apply Ic in I1;
              assert (I2 : In (PTmp name) [PTmp name; PCkpt name]) by (simpl; auto); apply It in I2; congruence).
  - exfalso. inversion ND as [|? ? Na ND']; subst. inversion ND' as [|? ? Nb ND'']; subst. simpl in Na, Nb.
    destruct (Hin a) as [->| ->], (Hin b) as [->| ->], (Hin c) as [->| ->]; simpl; auto; tauto.
Qed.

Lemma reads_inj (s : fs) p d d' : reads s p d -> reads s p d' -> d = d'.
Proof. intros (z & E & R1) (z' & E' & R2). congruence. Qed.

Lemma bad_reads (s : fs) p d : bad s p -> reads s p d -> False.
Proof.
  intros [E|(z & E & R1)] (z' & E' & R2); congruence.
Qed.

Lemma valid_reads (s : fs) p d : valid s p d -> s p <> None -> reads s p d.
Proof.
  intros [[_ E]|(z & E & (R1 & _))] N; [congruence|]. exists z; auto.
Qed.

Lemma valid_wf (s : fs) p d : valid s p d -> s p <> None ->
  exists z, s p = Some (Zip z) /\ wf_zip z d.
Proof. intros [[_ E]|W] N; [congruence|auto]. Qed.

Lemma valid_none (s : fs) p d : valid s p d -> s p = None -> d = [].
Proof. intros [[E _]|(z & E & _)] N; [auto|congruence]. Qed.

(** Merging in any state a run in an empty directory passes through raises, or
    recovers the results of a prefix of the configurations, each once. *)
Lemma snap_merge cs (f0 s : fs) g :
  nfiles_ok nfiles -> runs_ok exec out cs -> NoDup (map c_idx cs) ->
  (forall x, f0 x = None) -> snap out name f0 cs s -> glob_of s g ->
  (exists e, outcome_of (merge_checkpoints nfiles g) s = inr e) \/
  (exists n t f' b, merge_checkpoints nfiles g s = (t, f', inl (Some b)) /\
     Permutation (get_data_frame b) (rows_of out (firstn n cs)) /\
     b_file b = Some PMerged /\ b_confs b = [] /\
     valid f' PMerged (get_data_frame b) /\ (forall x, x <> PMerged -> f' x = None)).
Proof.
  intros NF RO ND Fe (So & Ss) Gg.
  assert (Hm : s PMerged = None) by (rewrite So by discriminate; auto).
  assert (Ho : forall x, x <> PCkpt name -> x <> PTmp name -> s x = None).
  { intros; rewrite So; auto. }
  destruct (outcome_of (merge_checkpoints nfiles g) s) as [m|e] eqn:Eo; [|left; eauto].
  right. unfold outcome_of in Eo.
  destruct (merge_checkpoints nfiles g s) as [[t f'] r] eqn:Em. simpl in Eo. subst r.
  destruct (merge_sound s g t f' m Hm Gg Em) as (b & ds & -> & F2 & Gb & Pw).
  destruct (glob_two s g Gg Ho) as (G2 & Gc & Gt & G0).
  assert (Rc : s (PCkpt name) <> None -> exists d, reads s (PCkpt name) d).
  { intros N. destruct (s (PTmp name)) eqn:Et.
    - destruct (G2 N) as [->| ->]; [congruence| |];
      inversion F2 as [|? d1 ? ? R1 F2']; subst; inversion F2' as [|? d2 ? ? R2 F2'']; subst; eauto.
    - rewrite (Gc N eq_refl) in F2. inversion F2; subst; eauto. }
  assert (Rt : s (PTmp name) <> None -> exists d, reads s (PTmp name) d).
  { intros N. destruct (s (PCkpt name)) eqn:Et.
    - destruct G2 as [->| ->]; [congruence|congruence| |];
      inversion F2 as [|? d1 ? ? R1 F2']; subst; inversion F2' as [|? d2 ? ? R2 F2'']; subst; eauto.
    - rewrite (Gt eq_refl N) in F2. inversion F2; subst; eauto. }
  destruct Ss as [B|[B|(fl & pe & rest & Ecs & Vt & Vc)]].
  { exfalso. destruct Rc as (d & Rd).
    - destruct B as [E|(z & E & _)]; congruence.
    - eapply bad_reads; eauto. }
  { exfalso. destruct Rt as (d & Rd).
    - destruct B as [E|(z & E & _)]; congruence.
    - eapply bad_reads; eauto. }
  assert (ROfp : runs_ok exec out (fl ++ pe)).
  { intros c I. apply RO. rewrite Ecs, app_assoc. apply in_or_app; auto. }
  assert (Vc' : valid s (PCkpt name) (rows_of out fl)).
  { destruct Vc as [Vc|[Npe Vc]]; auto. exfalso.
    assert (Nrow : rows_of out pe <> []) by (destruct pe; [congruence|discriminate]).
    assert (Nt : s (PTmp name) <> None).
    { intros E. apply Nrow. eapply valid_none; eauto. }
    assert (Nc : s (PCkpt name) <> None).
    { intros E. assert (Ez := valid_none _ _ _ Vc E). rewrite rows_app in Ez.
      apply app_eq_nil in Ez. tauto. }
    assert (R1 := valid_reads _ _ _ Vt Nt). assert (R2 := valid_reads _ _ _ Vc Nc).
    assert (Ov : forall d1 d2, ds = [d1; d2] ->
        (d1 = rows_of out (fl ++ pe) /\ d2 = rows_of out pe \/
         d2 = rows_of out (fl ++ pe) /\ d1 = rows_of out pe) -> False).
    { intros d1 d2 -> Hd. inversion Pw as [|? ? Fa _]; subst. inversion Fa as [|? ? Dj _]; subst.
      destruct pe as [|c0 pe0]; [congruence|].
      assert (I1 : In (r_idx (fst (out c0))) (map r_idx (rows_of out (c0 :: pe0)))) by (simpl; auto).
      assert (I2 : In (r_idx (fst (out c0))) (map r_idx (rows_of out (fl ++ c0 :: pe0)))).
      { rewrite rows_app, map_app. apply in_or_app; right; exact I1. }
      destruct Hd as [[-> ->]|[-> ->]]; eapply Dj; eauto. }
    destruct (G2 Nc Nt) as [->| ->];
      inversion F2 as [|? d1 ? ? Q1 F2']; subst; inversion F2' as [|? d2 ? ? Q2 F2'']; subst;
      inversion F2''; subst; eapply Ov; eauto.
    - left. split; eapply reads_inj; eauto.
    - right. split; eapply reads_inj; eauto. }
  assert (Pds : exists ds', Forall2 (fun p d => exists z, s p = Some (Zip z) /\ wf_zip z d) g ds' /\
     Permutation (concat ds') (rows_of out (fl ++ pe))).
  { rewrite rows_app. destruct (s (PCkpt name)) as [x|] eqn:Ec, (s (PTmp name)) as [y|] eqn:Et.
    - assert (Wc := valid_wf _ _ _ Vc' ltac:(congruence)).
      assert (Wt := valid_wf _ _ _ Vt ltac:(congruence)).
      destruct G2 as [->| ->]; try congruence.
      + exists [rows_of out fl; rows_of out pe]. split; [constructor; [|constructor; [|constructor]]; auto|].
        simpl. now rewrite app_nil_r.
      + exists [rows_of out pe; rows_of out fl]. split; [constructor; [|constructor; [|constructor]]; auto|].
        simpl. rewrite app_nil_r. apply Permutation_app_comm.
    - assert (Wc := valid_wf _ _ _ Vc' ltac:(congruence)).
      rewrite Gc by congruence. rewrite (valid_none _ _ _ Vt Et).
      exists [rows_of out fl]. split; [constructor; [|constructor]; auto|reflexivity].
    - assert (Wt := valid_wf _ _ _ Vt ltac:(congruence)).
      rewrite Gt by congruence. rewrite (valid_none _ _ _ Vc' Ec).
      exists [rows_of out pe]. split; [constructor; [|constructor]; auto|]. simpl. now rewrite app_nil_r.
    - rewrite G0 by congruence. rewrite (valid_none _ _ _ Vc' Ec), (valid_none _ _ _ Vt Et).
      exists []. split; constructor. }
  destruct Pds as (ds' & F2w & Pp).
  assert (NDp : NoDup (map r_idx (concat ds'))).
  { eapply Permutation_NoDup; [apply Permutation_map; symmetry; exact Pp|].
    rewrite (rows_idx exec) by exact ROfp.
    rewrite Ecs, app_assoc, map_app in ND. apply NoDup_app_inv in ND. tauto. }
  destruct (merge_ok s g ds' NF Hm Gg F2w NDp) as (t' & f'' & b' & Em' & Gb' & Bf & Bc & V & Hn & _).
  rewrite Em in Em'. inversion Em'; subst t' f'' b'.
  exists (length (fl ++ pe)), t, f', b. split; [reflexivity|].
  rewrite Gb'. split; [|auto].
  rewrite Pp. rewrite Ecs, app_assoc, firstn_app, Nat.sub_diag, firstn_all. simpl.
  now rewrite app_nil_r.
Qed.

(** Killed while a configuration is running, after the first checkpoint. *)
Lemma killed_merge cs (f0 : fs) k :
  nfiles_ok nfiles -> runs_ok exec out cs -> NoDup (map c_idx cs) ->
  (forall x, f0 x = None) -> every = Some (S k) -> S k <= length cs ->
  forall g s, s = final_fs (run_loop nfiles exec name history every cs 0 [] [] []
                              (fresh_result (PCkpt name))) f0 ->
  glob_of s g -> exists e, outcome_of (merge_checkpoints nfiles g) s = inr e.
Proof.
  intros NF RO ND Fe Ev Hk g s Es Gg.
  destruct (run_loop_ok nfiles exec out name history every f0 cs NF RO ND cs [] [] f0
     (fresh_result (PCkpt name)) 0) as (t & f' & ck & fl & pe & E & Ecs & Ag & CK & CR & Sn & Q); auto.
  { left; auto. } { repeat split. }
  change (rows_of out []) with (@nil row) in E. change (hists_of out []) with (@nil (nat * H)) in E.
  unfold final_fs in Es. rewrite E in Es. simpl in Es. subst s.
  destruct Q as [(_ & _ & Q)|(pre & pe0 & z & Efl & Npe & Ft & Wt)].
  { exfalso. assert (due every (S k) = false) by (apply Q; lia).
    rewrite Ev in H0. unfold due in H0. rewrite Nat.mod_same in H0 by lia. discriminate. }
  assert (Nfl : fl <> []).
  { rewrite Efl. intros En. apply app_eq_nil in En. tauto. }
  destruct CK as [[En _]|(_ & ms & Ec & _)]; [congruence|].
  destruct (outcome_of (merge_checkpoints nfiles g) f') as [m|e] eqn:Eo; [|eauto].
  exfalso. unfold outcome_of in Eo.
  destruct (merge_checkpoints nfiles g f') as [[t2 f2] r] eqn:Em. simpl in Eo. subst r.
  assert (Hm : f' PMerged = None) by (rewrite Ag by discriminate; auto).
  assert (Ho : forall x, x <> PCkpt name -> x <> PTmp name -> f' x = None).
  { intros; rewrite Ag; auto. }
  destruct (merge_sound f' g t2 f2 m Hm Gg Em) as (b & ds & -> & F2 & Gb & Pw).
  destruct (glob_two f' g Gg Ho) as (G2 & _).
  assert (R1 : reads f' (PCkpt name) (rows_of out fl)) by (eexists; split; [exact Ec|reflexivity]).
  assert (R2 : reads f' (PTmp name) (rows_of out pe0)) by (exists z; split; auto; apply Wt).
  assert (Ov : forall d1 d2, ds = [d1; d2] ->
        (d1 = rows_of out fl /\ d2 = rows_of out pe0 \/
         d2 = rows_of out fl /\ d1 = rows_of out pe0) -> False).
  { intros d1 d2 -> Hd. inversion Pw as [|? ? Fa _]; subst. inversion Fa as [|? ? Dj _]; subst.
    destruct pe0 as [|c0 pe0]; [congruence|].
    assert (I1 : In (r_idx (fst (out c0))) (map r_idx (rows_of out (c0 :: pe0)))) by (simpl; auto).
    assert (I2 : In (r_idx (fst (out c0))) (map r_idx (rows_of out (pre ++ c0 :: pe0)))).
    { rewrite rows_app, map_app. apply in_or_app; right; exact I1. }
    destruct Hd as [[-> ->]|[-> ->]]; eapply Dj; eauto. }
  destruct G2 as [->| ->]; [congruence|congruence| |];
      inversion F2 as [|? d1 ? ? Q1 F2']; subst; inversion F2' as [|? d2 ? ? Q2 F2'']; subst;
      inversion F2''; subst; eapply Ov; eauto.
  - left. split; eapply reads_inj; eauto.
  - right. split; eapply reads_inj; eauto.
Qed.

End Run.

(** ** Distribution over actors *)

Lemma every_nth_perm {A} n (l : list A) :
  Permutation (concat (map (fun i => every_nth (S n) i l) (seq 0 (S n)))) l.
Proof.
  induction l as [|x r IH].
  - simpl. replace (concat _) with (@nil A); auto.
    generalize 1. generalize n at 1. intros m. induction m; intros k; simpl; auto.
  - rewrite seq_S in IH. rewrite map_app, concat_app in IH. simpl in IH. rewrite app_nil_r in IH.
    cbn [seq map concat]. rewrite <- seq_shift, map_map.
    cbn [every_nth pred]. simpl app. constructor.
    rewrite <- IH at 2. rewrite Permutation_app_comm. apply Permutation_app_tail. reflexivity.
Qed.

Lemma every_nth_nth {A} n (l : list A) : forall i j, i <= n ->
  nth_error (every_nth (S n) i l) j = nth_error l (i + j * S n).
Proof.
  induction l as [|x r IH]; intros i j Hi.
  - simpl. destruct j, (i + _); reflexivity.
  - destruct i as [|i]; cbn [every_nth].
    + destruct j as [|j]; [reflexivity|]. cbn [nth_error pred]. rewrite IH by lia.
      replace (0 + S j * S n) with (S (n + j * S n)) by lia. reflexivity.
    + rewrite IH by lia. reflexivity.
Qed.

Lemma extend_all_ok p bs : forall (f : fs) (self : bres) d0 ds,
  nfiles_ok nfiles ->
  b_file self = Some p -> b_confs self = [] -> b_hist self = [] -> get_data_frame self = d0 ->
  valid f p d0 ->
  Forall2 (fun b d => get_data_frame b = d /\ b_confs b = [] /\
     (d = [] \/ exists q z, b_file b = Some q /\ q <> p /\ f q = Some (Zip z) /\ wf_zip z d)) bs ds ->
  NoDup (map r_idx (d0 ++ concat ds)) ->
  exists t f' b, extend_all nfiles self bs f = (t, f', inl b) /\
    agree_off p f f' /\ get_data_frame b = d0 ++ concat ds /\
    b_file b = Some p /\ b_confs b = [] /\ b_hist b = [] /\ valid f' p (d0 ++ concat ds).
Proof.
  induction bs as [|b0 bs IH]; intros f m d0 ds NF Fm Cm Hm Gm Vm F2 ND.
  - inversion F2; subst. simpl. rewrite app_nil_r in *. exists [], f, m.
    repeat split; auto.
  - inversion F2 as [|? d ? ds' (Gl & Cl & Hl) F2']; subst ds. cbn [extend_all].
    assert (Il : get_indices b0 = map r_idx d) by (apply get_indices_rows; auto).
    assert (ND2 := ND). rewrite map_app in ND2. apply NoDup_app_inv in ND2 as (ND0 & NDc & Dd).
    simpl in NDc, Dd. rewrite map_app in NDc.
    unfold bind at 1.
    assert (Cd : d = [] \/ d <> []) by (destruct d; [left|right]; congruence).
    destruct Cd as [Ed|Nd].
    + rewrite extend_nothing by (rewrite Il, Ed; reflexivity).
      destruct (IH f m d0 ds' NF) as (t & f' & b & E & R1); auto.
      { rewrite Ed in ND; exact ND. }
      rewrite E. exists t, f', b. split; [reflexivity|]. rewrite Ed. exact R1.
    + destruct Hl as [Hl|(q & z & Fq & Nq & Ez & (Wr & Wn & Wk))]; [congruence|].
      assert (HM : exists ms, has_members f p ms /\ ne_members ms /\
                    incl (map fst (payload ms)) (map r_idx d0)).
      { destruct Vm as [[E0 Em]|(zm & Em & (Vr & Vn & Vk))].
        - exists []. split; [left; auto|]. split; [intros ? []|intros ? []].
        - exists (z_mem zm). split; [|auto]. right. exists (Some d0).
          rewrite Em, <- Vr. destruct zm; reflexivity. }
      destruct HM as (ms & HM & Nms & Kms).
      assert (Is : get_indices m = map r_idx d0) by (apply get_indices_rows; auto).
      destruct (extend_ok nfiles m b0 f p q ms z)
        as (t2 & f2 & m2 & E2 & A2 & P2 & G2 & _ & Bf & Bc & Bh & Tr); auto.
      { rewrite Il. destruct d; [congruence|discriminate]. }
      { intros i I J. rewrite Il in I. rewrite Is in J. apply (Dd i J).
        rewrite map_app. apply in_or_app; auto. }
      { apply names_disjoint_keys; auto. intros i I J. apply Kms in I. apply Wk in J.
        apply (Dd i I). rewrite map_app. apply in_or_app; auto. }
      rewrite E2. rewrite Gl, Gm in *.
      destruct (IH f2 m2 (d0 ++ d) ds' NF) as (t & f' & b & E & A3 & G3 & Rf & Rc & Rh & Rv); auto.
      { right. eexists. split; [exact P2|]. repeat split; auto.
        - intros x1 I. simpl in I. apply in_app_iff in I as [I|I]; auto.
          apply in_app_iff in I as [I|I]; apply of_kind_in in I as [I _]; auto.
        - intros i I. simpl in I. rewrite payload_app, map_app in I. rewrite map_app, in_app_iff.
          apply in_app_iff in I as [I|I]; [left; auto|right]. apply Wk.
          eapply Permutation_in; [|exact I]. apply Permutation_map. rewrite payload_app.
          symmetry. apply payload_kinds. }
      { clear - F2' A2. induction F2'; constructor; auto.
        destruct H0 as (Ga & Gb & Gc). repeat split; auto.
        destruct Gc as [Gc|(q & z & Fq & Nq & Ez & W)]; auto. right. exists q, z.
        repeat split; auto; try apply W. rewrite A2; auto. }
      { rewrite <- app_assoc. exact ND. }
      rewrite E. exists (t2 ++ t), f', b. split; [reflexivity|].
      split; [eapply agree_trans; eauto|]. split; [rewrite G3; simpl; now rewrite <- app_assoc|].
      repeat (split; auto). simpl concat. rewrite app_assoc. exact Rv.
Qed.

Lemma F2_impl {A B} (P Q : A -> B -> Prop) : (forall a b, P a b -> Q a b) ->
  forall l l', Forall2 P l l' -> Forall2 Q l l'.
Proof. intros Hi l l' F. induction F; constructor; auto. Qed.

Section Mp.
Variable exec : conf -> option (row * H).
Variable out : conf -> row * H.
Variable history : bool.
Variable every : option nat.

Lemma run_actors_ok : nfiles_ok nfiles -> forall parts i (f : fs),
  runs_ok exec out (concat parts) -> NoDup (map c_idx (concat parts)) ->
  (forall j, i < j -> f (PCkpt j) = None) ->
  exists t f' bs, run_actors nfiles exec i history every parts f = (t, f', inl bs) /\
    (forall x, (forall j, i < j -> x <> PCkpt j /\ x <> PTmp j) -> f' x = f x) /\
    Forall2 (fun b cs => get_data_frame b = rows_of out cs /\ b_confs b = [] /\
       (cs = [] \/ exists j z, i < j /\ b_file b = Some (PCkpt j) /\
                   f' (PCkpt j) = Some (Zip z) /\ wf_zip z (rows_of out cs))) bs parts /\
    Forall2 (fun j cs => cs = [] \/ exists z, f' (PCkpt j) = Some (Zip z) /\ wf_zip z (rows_of out cs))
      (seq (S i) (length parts)) parts.
Proof.
  intros NF. induction parts as [|cs parts IH]; intros i f RO ND Fn.
  - simpl. exists [], f, []. repeat split; auto; constructor.
  - cbn [run_actors]. simpl in RO, ND. rewrite map_app in ND.
    apply NoDup_app_inv in ND as (ND1 & ND2 & _).
    assert (RO1 : runs_ok exec out cs) by (intros c I; apply RO, in_or_app; auto).
    assert (RO2 : runs_ok exec out (concat parts)) by (intros c I; apply RO, in_or_app; auto).
    destruct (run_ok nfiles exec out (S i) history every cs (fresh_result PMerged) f NF RO1 ND1)
      as (t & f1 & b & E & Gb & Bf & Bc & _ & Fo & Ft & Fc & _).
    { apply Fn; lia. } { left; auto. }
    unfold bind at 1. rewrite E. change (get_data_frame (fresh_result PMerged)) with (@nil row) in *.
    rewrite app_nil_r in Gb.
    destruct (IH (S i) f1 RO2 ND2) as (t2 & f2 & bs & E2 & Fo2 & F2 & F3).
    { intros j Hj. rewrite Fo; [apply Fn; lia| |]; intros Ej; (injection Ej; lia) || discriminate Ej. }
    unfold bind. rewrite E2. unfold ret.
    eexists _, _, _. split; [reflexivity|]. split.
    + intros x Hx. rewrite Fo2.
      * apply Fo; apply Hx; lia.
      * intros j Hj. apply Hx; lia.
    + assert (Own : cs = [] \/ exists z, f2 (PCkpt (S i)) = Some (Zip z) /\ wf_zip z (rows_of out cs)).
      { destruct Fc as [(-> & _ & _)|(ms & Ec & Ne & Ik & _)]; [left; auto|].
        destruct cs as [|c0 cs0] eqn:Ecs; [left; auto|right]. rewrite <- Ecs in *.
        eexists. rewrite Fo2; [split; [exact Ec|]|].
        -- rewrite <- Gb. repeat split; auto.
        -- intros j Hj. split; [intros Ej; injection Ej; lia|discriminate]. }
      split; [|cbn [length seq]; constructor; [exact Own|exact F3]]. constructor.
      * split; auto. split; auto. destruct Own as [->|(z & Ez & Wz)]; [auto|right].
        exists (S i), z. repeat (split; auto).
      * eapply F2_impl; [|exact F2]. intros b' cs' (Ga & Gb' & Gc). repeat split; auto.
        destruct Gc as [Gc|(j & z & Hj & Rr)]; auto. right. exists j, z. split; [lia|exact Rr].
Qed.

Lemma run_mp_ok n cs (ex : bres) (f : fs) :
  nfiles_ok nfiles -> runs_ok exec out cs -> NoDup (map c_idx cs) ->
  (forall j, f (PCkpt j) = None) -> existing_ok ex f cs -> b_confs ex = [] ->
  NoDup (map r_idx (get_data_frame ex)) ->
  exists t f' b, run_mp nfiles exec (S n) history every cs ex f = (t, f', inl b) /\
    get_data_frame b = concat (map (rows_of out) (actor_split (S n) cs)) ++ get_data_frame ex /\
    Permutation (get_data_frame b) (rows_of out cs ++ get_data_frame ex) /\
    valid f' (PCkpt 0) (get_data_frame b) /\ f' PMerged = f PMerged /\
    Forall2 (fun i cs' => cs' = [] \/
       exists z, f' (PCkpt (S i)) = Some (Zip z) /\ wf_zip z (rows_of out cs'))
      (seq 0 (S n)) (actor_split (S n) cs).
Proof.
  intros NF RO ND Fn EX Cx NDx.
  assert (P : Permutation (concat (actor_split (S n) cs)) cs) by apply every_nth_perm.
  destruct (run_actors_ok NF (actor_split (S n) cs) 0 f) as (t & f1 & bs & E & Fo & F2 & F3).
  { intros c I. apply RO. eapply Permutation_in; eauto. }
  { eapply Permutation_NoDup; [apply Permutation_map; symmetry; exact P|exact ND]. }
  { intros j _. apply Fn. }
  assert (PR : Permutation (concat (map (rows_of out) (actor_split (S n) cs))) (rows_of out cs)).
  { etransitivity; [|apply (Permutation_map (fun c => fst (out c))), P]. clear. induction (actor_split (S n) cs); simpl; auto.
    rewrite map_app. now apply Permutation_app_head. }
  unfold run_mp. unfold bind at 1. rewrite E.
  assert (Eapp : forall self (g : fs), bind (extend_all nfiles self bs) (fun b => extend nfiles b ex true) g
            = extend_all nfiles self (bs ++ [ex]) g).
  { clear. induction bs as [|b bs IH]; intros self g.
    - simpl. unfold bind, ret. destruct (extend nfiles self ex true g) as [[t f] [u|e]]; auto.
      now rewrite app_nil_r.
    - cbn [extend_all app]. unfold bind. destruct (extend nfiles self b true g) as [[t f] [u|e]]; auto.
      rewrite <- IH. unfold bind. destruct (extend_all nfiles u bs f) as [[t2 f2] [u2|e]]; auto.
      destruct (extend nfiles u2 ex true f2) as [[t3 f3] r]. now rewrite app_assoc. }
  rewrite Eapp.
  assert (Fm : f1 PMerged = f PMerged).
  { apply Fo. intros j _. split; discriminate. }
  destruct (extend_all_ok (PCkpt 0) (bs ++ [ex]) f1 (fresh_result (PCkpt 0)) []
     (map (rows_of out) (actor_split (S n) cs) ++ [get_data_frame ex]) NF)
    as (t2 & f2 & b & E2 & A2 & G2 & Bf & Bc & Bh & V2); auto.
  { left. split; auto. rewrite Fo; [apply Fn|]. intros j Hj. split; [|discriminate].
    intros Ej; injection Ej; lia. }
  { apply Forall2_app.
    - clear - F2. induction F2; simpl; constructor; auto.
      destruct H0 as (Ga & Gb & Gc). repeat split; auto.
      destruct Gc as [->|(j & z & Hj & Bf & Ez & W)]; [left; auto|right].
      exists (PCkpt j), z. split; auto. split; auto. intros Ej; injection Ej; lia.
    - constructor; [|constructor]. split; auto. split; auto.
      destruct EX as [[Ge _]|(_ & Fe & (z & Ez & W) & _)]; [left; auto|right].
      exists PMerged, z. split; auto. split; [discriminate|]. rewrite Fm. auto. }
  { rewrite app_nil_l, concat_app. cbn [concat]. rewrite app_nil_r.
    eapply Permutation_NoDup.
    { apply Permutation_map. apply Permutation_app_tail. symmetry. exact PR. }
    rewrite map_app. rewrite (rows_idx exec) by auto.
    assert (Dj : forall i, In i (map c_idx cs) -> In i (map r_idx (get_data_frame ex)) -> False).
    { destruct EX as [[Ge _]|(_ & _ & _ & Dd)]; auto. rewrite Ge. simpl; tauto. }
    clear - ND NDx Dj. induction (map c_idx cs) as [|x l IH]; simpl; auto.
    inversion ND; subst. constructor.
    - rewrite in_app_iff. intros [I|I]; [auto|]. eapply Dj; simpl; eauto.
    - apply IH; auto. intros i I J. eapply Dj; simpl; eauto. }
  rewrite E2. eexists _, _, _. split; [reflexivity|].
  rewrite app_nil_l, concat_app in G2, V2. cbn [concat] in G2, V2. rewrite app_nil_r in G2, V2.
  split; [exact G2|]. split.
  { rewrite G2. now apply Permutation_app_tail. }
  split; [rewrite G2; exact V2|]. split; [rewrite A2 by discriminate; exact Fm|].
  assert (Lb : length (actor_split (S n) cs) = S n)
    by (unfold actor_split; rewrite map_length, seq_length; reflexivity).
  rewrite Lb in F3. rewrite <- seq_shift in F3.
  revert F3. generalize (actor_split (S n) cs) as l. generalize (seq 0 (S n)) as sq.
  induction sq as [|a sq IH]; intros l F3; simpl in F3; inversion F3; subst; constructor; auto.
  destruct H2 as [->|(z & Ez & Wz)]; [auto|right]. exists z. rewrite A2 by discriminate. auto.
Qed.

End Mp.

End P.
