(** Which attributes of the file matter. *)
From Coq Require Import String List Arith NArith ZArith Bool Lia.
Import ListNotations.
From Verif Require Import Model_Map Proof_Map Model_Roadgraph Spec_Roadgraph Model_Xodr Spec_Xodr.
Local Open Scope string_scope.
Local Open Scope list_scope.

Section Attr.
Context {F Line PV P : Type}.
Variables (fzero : F) (fadd : F -> F -> F).
Variable to_float : string -> option F.
Variable to_int : string -> option Z.
Variable pv_empty : PV.
Variable pv_geom : PV -> xgeom F -> option PV.
Variable pv_shift : PV -> F -> F -> F -> PV.
Variable ref_line : PV -> Line.
Variable empty_line : Line.
Variable append : Line -> Line -> Z -> xwidth F -> option Line.
Variable line_len : Line -> F.
Variable points : Line -> list P.
Variable s_inc : sinc F.
Notation number := (fun v => to_float v <> None).
Notation agree := (agree number).
Notation make_lane := (make_lane fzero fadd to_float to_int empty_line append points).
Notation make_lanes := (make_lanes fzero fadd to_float to_int empty_line append line_len points).
Notation make_section := (make_section fzero fadd to_float to_int empty_line append line_len points).
Notation make_sections := (make_sections fzero fadd to_float to_int empty_line append line_len points).
Notation make_road := (make_road fzero fadd to_float to_int pv_empty pv_geom pv_shift ref_line empty_line append line_len points s_inc).
Notation make_roads := (make_roads fzero fadd to_float to_int pv_empty pv_geom pv_shift ref_line empty_line append line_len points s_inc).
Notation read_map := (read_map fzero fadd to_float to_int pv_empty pv_geom pv_shift ref_line empty_line append line_len points s_inc).

(** elements with the tag [t] that agree *)
Definition ag (t : string) (x y : xml) : Prop := agree x y /\ tag_of x = t.

Lemma ag_findall x y t : agree x y -> Forall2 (ag t) (findall x t) (findall y t).
Proof.
  intros H. inversion H as [t0 a b k k' _ _ HK]; subst. unfold findall. cbn [kids_of]. clear H.
  induction HK as [|u v l l' HU HK IH]; cbn [filter]; [constructor|]. inversion HU as [t1 a1 b1 k1 k1' Q1 Q2 Q3]; subst.
  cbn [tag_of]. destruct (String.eqb_spec t1 t) as [->|]; [constructor; [split; [exact HU|reflexivity]|]|]; exact IH.
Qed.
Lemma ag_find1 x y t : agree x y -> match find1 x t, find1 y t with Some u, Some v => ag t u v | None, None => True | _, _ => False end.
Proof. intros H. unfold find1. destruct (ag_findall x y t H); cbn [hd_error]; auto. Qed.
Lemma ag_attr t x y n : ag t x y -> used t n = true -> attr x n = attr y n.
Proof. intros [H <-]. inversion H as [t0 a b k k' Q _ _]; subst. cbn [tag_of]. unfold attr. cbn [attrs_of]. apply Q. Qed.
Lemma ag_f t x y n : ag t x y -> used t n = true -> fattr to_float x n = fattr to_float y n.
Proof. intros H U. unfold fattr. now rewrite (ag_attr t x y n H U). Qed.
Lemma ag_i t x y n : ag t x y -> used t n = true -> iattr to_int x n = iattr to_int y n.
Proof. intros H U. unfold iattr. now rewrite (ag_attr t x y n H U). Qed.
Ltac fa t H := repeat match goal with |- context [fattr to_float ?x ?n] =>
    match type of H with ag _ x ?y => rewrite (ag_f t x y n H eq_refl) end end;
  repeat match goal with |- context [iattr to_int ?x ?n] =>
    match type of H with ag _ x ?y => rewrite (ag_i t x y n H eq_refl) end end;
  repeat match goal with |- context [attr ?x ?n] =>
    match type of H with ag _ x ?y => rewrite (ag_attr t x y n H eq_refl) end end.
Ltac f1 H t u v := let K := fresh "K" in pose proof (ag_find1 _ _ t (proj1 H)) as K;
  match type of K with match ?a with Some _ => match ?b with Some _ => _ | None => _ end | None => _ end => destruct a as [u|], b as [v|]; try contradiction; clear K || idtac end.

Lemma omap_ag {B} (f : xml -> option B) t : (forall x y, ag t x y -> f x = f y) -> forall l l', Forall2 (ag t) l l' -> omap f l = omap f l'.
Proof. intros H l l' A. induction A as [|x y l l' A1 A IH]; cbn [omap]; [reflexivity|]. now rewrite (H _ _ A1), IH. Qed.

Lemma width_ag x y : ag "width" x y -> width_record to_float x = width_record to_float y.
Proof. intros H. unfold width_record. fa "width" H. reflexivity. Qed.
Lemma widths_ag x y i : ag "lane" x y -> lane_widths fzero to_float x i = lane_widths fzero to_float y i.
Proof.
  intros H. unfold lane_widths. pose proof (ag_findall x y "width" (proj1 H)) as K.
  pose proof (omap_ag _ _ width_ag _ _ K) as E. destruct K; [reflexivity|exact E].
Qed.
Lemma type_ag x y : ag "lane" x y -> lane_type x = lane_type y.
Proof. intros H. unfold lane_type. fa "lane" H. reflexivity. Qed.
Lemma dir_ag x y i : ag "lane" x y -> lane_dir x i = lane_dir y i.
Proof.
  intros H. unfold lane_dir. replace (travel_dir y) with (travel_dir x); [reflexivity|]. unfold travel_dir.
  pose proof (ag_find1 x y "userData" (proj1 H)) as K. destruct (find1 x "userData") as [u|], (find1 y "userData") as [u'|]; try contradiction; [|reflexivity]. cbn [obind].
  pose proof (ag_find1 u u' "vectorLane" (proj1 K)) as K2. destruct (find1 u "vectorLane") as [v|], (find1 u' "vectorLane") as [v'|]; try contradiction; [|reflexivity]. cbn [obind].
  fa "vectorLane" K2. reflexivity.
Qed.
Lemma lpos_ag x y w t : (w = "predecessor" \/ w = "successor") -> ag t x y -> link_pos to_int x w = link_pos to_int y w.
Proof.
  intros W H. unfold link_pos.
  pose proof (ag_find1 x y "link" (proj1 H)) as K. destruct (find1 x "link") as [u|], (find1 y "link") as [u'|]; try contradiction; [|reflexivity]. cbn [obind].
  pose proof (ag_find1 u u' w (proj1 K)) as K2. destruct (find1 u w) as [v|], (find1 u' w) as [v'|]; try contradiction; [|reflexivity]. cbn [obind].
  rewrite (ag_i w v v' "id" K2); [reflexivity|]. destruct W as [-> | ->]; reflexivity.
Qed.
Lemma mark_ag x y : ag "lane" x y -> road_mark_ok to_float x = road_mark_ok to_float y.
Proof.
  intros H. unfold road_mark_ok. pose proof (ag_find1 x y "roadMark" (proj1 H)) as K. destruct (find1 x "roadMark") as [u|], (find1 y "roadMark") as [u'|]; try contradiction; [|reflexivity].
  fa "roadMark" K. reflexivity.
Qed.
Lemma make_lane_ag n i x y se prev off j : ag "lane" x y -> make_lane n i x se prev off j = make_lane n i y se prev off j.
Proof.
  intros H. unfold Model_Xodr.make_lane. rewrite (widths_ag _ _ i H), (mark_ag _ _ H), (type_ag _ _ H), (dir_ag _ _ i H),
    (lpos_ag x y "predecessor" "lane" (or_introl eq_refl) H), (lpos_ag x y "successor" "lane" (or_intror eq_refl) H). reflexivity.
Qed.
Definition agz (p q : Z * xml) : Prop := fst p = fst q /\ ag "lane" (snd p) (snd q).
Lemma make_lanes_ag rl ref off j : forall l l', Forall2 agz l l' -> forall n ws, make_lanes n ws l rl ref off j = make_lanes n ws l' rl ref off j.
Proof.
  induction 1 as [|[i x] [i' y] l l' [E A] H IH]; intros n ws; [reflexivity|]. cbn [fst snd] in E, A. subst i'. cbn [Model_Xodr.make_lanes].
  assert (K : forall (a : option (xlane P * Line)) f g, (forall l, f l = g l) -> @obind _ (list (xlane P * Line) * N) a f = obind a g) by (intros [q|] f g K; cbn; auto).
  assert (K2 : forall (a : option Line) f g, (forall l, f l = g l) -> @obind _ (xlane P * Line) a f = obind a g) by (intros [q|] f g K2; cbn; auto).
  replace (if (i =? 0)%Z then make_lane n i x rl ref (no_off fzero) j else if ((i =? -1)%Z || (i =? 1)%Z)%bool then make_lane n i x rl ref off j
     else obind (by_position ws (if (0 <? i)%Z then (i - 1)%Z else (i + 1)%Z)) (fun prev => make_lane n i x (line_len prev) prev (no_off fzero) j))
   with (if (i =? 0)%Z then make_lane n i y rl ref (no_off fzero) j else if ((i =? -1)%Z || (i =? 1)%Z)%bool then make_lane n i y rl ref off j
     else obind (by_position ws (if (0 <? i)%Z then (i - 1)%Z else (i + 1)%Z)) (fun prev => make_lane n i y (line_len prev) prev (no_off fzero) j)).
  - apply K. intros q. apply IH.
  - rewrite !(make_lane_ag n i x y) by exact A. destruct (i =? 0)%Z; [reflexivity|]. destruct (_ || _)%bool; [reflexivity|]. apply K2. intros q. symmetry. apply make_lane_ag, A.
Qed.
Lemma ins_ag p q l l' : agz p q -> Forall2 agz l l' -> Forall2 agz (ins p l) (ins q l').
Proof.
  intros A H. induction H as [|x y l l' B H IH]; cbn [ins]; [constructor; auto|]. rewrite (proj1 A), (proj1 B). destruct (Z.abs (fst q) <=? Z.abs (fst y))%Z; constructor; auto.
Qed.
Lemma dist_ag l l' : Forall2 agz l l' -> Forall2 agz (by_distance l) (by_distance l').
Proof. induction 1; cbn [by_distance]; [constructor|]. apply ins_ag; auto. Qed.
Lemma zset_ag d d' k x y : Forall2 agz d d' -> ag "lane" x y -> Forall2 agz (zset d k x) (zset d' k y).
Proof.
  intros H A. induction H as [|[j u] [j' v] d d' [E B] H IH]; cbn [zset]; [constructor; [split; auto|constructor]|]. cbn [fst snd] in *. subst j'.
  destruct (j =? k)%Z; constructor; auto; split; auto.
Qed.
Definition orel {A} (R : A -> A -> Prop) (a b : option A) : Prop := match a, b with Some x, Some y => R x y | None, None => True | _, _ => False end.
Lemma dict_ag l l' : Forall2 (ag "lane") l l' -> forall d d', Forall2 agz d d' -> orel (Forall2 agz) (lane_dict to_int d l) (lane_dict to_int d' l').
Proof.
  induction 1 as [|x y l l' A H IH]; intros d d' D; cbn [lane_dict]; [exact D|]. rewrite (ag_i "lane" x y "id" A eq_refl).
  destruct (iattr to_int y "id"); cbn [obind]; [|exact I]. apply IH, zset_ag; auto.
Qed.
Lemma secl_ag x y : agree x y -> orel (Forall2 agz) (section_lanes to_int x) (section_lanes to_int y).
Proof.
  intros H. unfold section_lanes.
  assert (G : Forall2 agree (findall x "left" ++ findall x "center" ++ findall x "right") (findall y "left" ++ findall y "center" ++ findall y "right")).
  { assert (K : forall t, Forall2 agree (findall x t) (findall y t)) by (intros t; pose proof (ag_findall x y t H) as K; induction K; constructor; auto; apply H0).
    apply Forall2_app; [apply K|]. apply Forall2_app; apply K. }
  revert G. generalize (findall x "left" ++ findall x "center" ++ findall x "right") (findall y "left" ++ findall y "center" ++ findall y "right"). intros l l' G.
  assert (O : orel (Forall2 (Forall2 agz)) (omap (fun g => lane_dict to_int [] (findall g "lane")) l) (omap (fun g => lane_dict to_int [] (findall g "lane")) l')).
  { induction G as [|u v l l' A G IH]; cbn [omap]; [constructor|].
    pose proof (dict_ag _ _ (ag_findall u v "lane" A) [] [] (Forall2_nil _)) as D.
    destruct (lane_dict to_int [] (findall u "lane")), (lane_dict to_int [] (findall v "lane")); try contradiction; cbn [obind]; [|exact I].
    destruct (omap _ l), (omap _ l'); try contradiction; cbn [obind orel]; [|exact I]. constructor; assumption. }
  destruct (omap _ l) as [gs|], (omap _ l') as [gs'|]; try contradiction; [|exact I]. cbn [obind orel] in *. induction O; cbn [concat]; [constructor|]. apply Forall2_app; assumption.
Qed.
Lemma section_s_ag x y : ag "laneSection" x y -> (fattr to_float x "s" = None <-> fattr to_float y "s" = None).
Proof.
  intros [H T]. inversion H as [t a b k k' _ Q _]; subst. cbn [tag_of] in T. subst t. specialize (Q eq_refl). unfold fattr, attr. cbn [attrs_of].
  destruct (assoc a "s") as [u|], (assoc b "s") as [v|]; cbn [obind].
  - split; intros E; [destruct (to_float v) eqn:V|destruct (to_float u) eqn:V]; auto; exfalso.
    + destruct (proj2 Q) as (w & W1 & W2); [exists v; split; congruence|]. congruence.
    + destruct (proj1 Q) as (w & W1 & W2); [exists u; split; congruence|]. congruence.
  - split; [reflexivity|]. intros _. destruct (to_float u) eqn:V; auto. destruct (proj1 Q) as (w & W1 & W2); [exists u; split; congruence|]. discriminate.
  - split; [|reflexivity]. intros _. destruct (to_float v) eqn:V; auto. destruct (proj2 Q) as (w & W1 & W2); [exists v; split; congruence|]. discriminate.
  - tauto.
Qed.
Lemma make_section_ag n x y rl ref off j : ag "laneSection" x y -> make_section n x rl ref off j = make_section n y rl ref off j.
Proof.
  intros H. unfold Model_Xodr.make_section. pose proof (section_s_ag x y H) as S. destruct (fattr to_float x "s"), (fattr to_float y "s"); cbn [obind]; [|exfalso; assert (Some f = None) by tauto; discriminate|exfalso; assert (Some f = None) by tauto; discriminate|reflexivity].
  pose proof (secl_ag x y (proj1 H)) as K. destruct (section_lanes to_int x) as [l|], (section_lanes to_int y) as [l'|]; try contradiction; [|reflexivity]. cbn [obind orel] in *.
  pose proof (dist_ag _ _ K) as D. destruct K; [reflexivity|]. destruct rl as [rl|]; [|reflexivity]. cbn [obind]. now rewrite (make_lanes_ag rl ref off j _ _ D).
Qed.
Lemma make_sections_ag rl ref off j : forall l l', Forall2 (ag "laneSection") l l' -> forall n, make_sections n l rl ref off j = make_sections n l' rl ref off j.
Proof.
  induction 1 as [|x y l l' A H IH]; intros n; [reflexivity|]. cbn [Model_Xodr.make_sections]. rewrite (make_section_ag _ _ _ rl ref off j A).
  destruct (make_section n y rl ref off j) as [[s n1]|]; [|reflexivity]. cbn [obind]. now rewrite IH.
Qed.
Lemma offset_ag t x y : ag t x y -> lane_offset fzero to_float x = lane_offset fzero to_float y.
Proof.
  intros H. unfold lane_offset. pose proof (ag_find1 x y "laneOffset" (proj1 H)) as K. destruct (find1 x "laneOffset") as [u|], (find1 y "laneOffset") as [u'|]; try contradiction; [|reflexivity].
  fa "laneOffset" K. reflexivity.
Qed.
Lemma geom_ag x y : ag "geometry" x y -> geometry to_float s_inc x = geometry to_float s_inc y.
Proof.
  intros H. unfold geometry. fa "geometry" H.
  pose proof (ag_find1 x y "arc" (proj1 H)) as K1. destruct (find1 x "arc") as [u|], (find1 y "arc") as [u'|]; try contradiction; [fa "arc" K1; reflexivity|].
  pose proof (ag_find1 x y "spiral" (proj1 H)) as K2. destruct (find1 x "spiral") as [u|], (find1 y "spiral") as [u'|]; try contradiction; [fa "spiral" K2; reflexivity|].
  pose proof (ag_find1 x y "line" (proj1 H)) as K3. destruct (find1 x "line") as [u|], (find1 y "line") as [u'|]; try contradiction; reflexivity.
Qed.
Lemma pvf_ag : forall l l', Forall2 (ag "geometry") l l' -> forall v, plan_view_from to_float pv_geom s_inc v l = plan_view_from to_float pv_geom s_inc v l'.
Proof.
  induction 1 as [|x y l l' A H IH]; intros v; [reflexivity|]. cbn [plan_view_from]. rewrite (geom_ag _ _ A). destruct (geometry to_float s_inc y); [|reflexivity]. cbn [obind].
  destruct (pv_geom v x0); [|reflexivity]. cbn [obind]. apply IH.
Qed.
Lemma pv_ag hdr x y : ag "road" x y -> plan_view to_float pv_empty pv_geom pv_shift s_inc hdr x = plan_view to_float pv_empty pv_geom pv_shift s_inc hdr y.
Proof.
  intros H. unfold plan_view. pose proof (ag_find1 x y "planView" (proj1 H)) as K. destruct (find1 x "planView") as [u|], (find1 y "planView") as [u'|]; try contradiction; [|reflexivity].
  cbn [obind]. rewrite (pvf_ag _ _ (ag_findall u u' "geometry" (proj1 K))). reflexivity.
Qed.
Lemma rlink_ag w x y : (w = "predecessor" \/ w = "successor") -> ag "road" x y -> Model_Xodr.road_link to_int x w = Model_Xodr.road_link to_int y w.
Proof.
  intros W H. unfold Model_Xodr.road_link.
  pose proof (ag_find1 x y "link" (proj1 H)) as K. destruct (find1 x "link") as [u|], (find1 y "link") as [u'|]; try contradiction; [|reflexivity]. cbn [obind].
  pose proof (ag_find1 u u' w (proj1 K)) as K2. destruct (find1 u w) as [v|], (find1 u' w) as [v'|]; try contradiction; [|reflexivity]. cbn [obind].
  rewrite (ag_i w v v' "elementId" K2) by (destruct W as [-> | ->]; reflexivity). rewrite (ag_attr w v v' "elementType" K2) by (destruct W as [-> | ->]; reflexivity). reflexivity.
Qed.
Lemma make_road_ag n hdr x y : ag "road" x y -> make_road n hdr x = make_road n hdr y.
Proof.
  intros H. unfold Model_Xodr.make_road. pose proof (ag_find1 x y "lanes" (proj1 H)) as K. destruct (find1 x "lanes") as [u|], (find1 y "lanes") as [u'|]; try contradiction; [|reflexivity]. cbn [obind].
  rewrite (offset_ag _ _ _ K), (pv_ag hdr x y H), (rlink_ag "successor" x y (or_intror eq_refl) H), (rlink_ag "predecessor" x y (or_introl eq_refl) H). fa "road" H.
  destruct (lane_offset fzero to_float u'); [|reflexivity]. cbn [obind]. destruct (obind (iattr to_int y "id") _); [|reflexivity]. cbn [obind].
  destruct (attr y "name"); [|reflexivity]. cbn [obind]. destruct (plan_view _ _ _ _ _ hdr y); [|reflexivity]. cbn [obind]. destruct (iattr to_int y "junction"); [|reflexivity]. cbn [obind].
  now rewrite (make_sections_ag _ _ _ _ _ _ (ag_findall u u' "laneSection" (proj1 K))).
Qed.
Lemma make_roads_ag hdr : forall l l', Forall2 (ag "road") l l' -> forall n m, make_roads n hdr l m = make_roads n hdr l' m.
Proof.
  induction 1 as [|x y l l' A H IH]; intros n m; [reflexivity|]. cbn [Model_Xodr.make_roads]. rewrite (make_road_ag n hdr _ _ A).
  destruct (make_road n hdr y) as [[q n1]|]; [|reflexivity]. cbn [obind]. apply IH.
Qed.
Lemma junction_ag x y : ag "junction" x y -> make_junction to_int x = make_junction to_int y.
Proof.
  intros H. unfold make_junction. fa "junction" H.
  rewrite (omap_ag (make_connection to_int) "connection" ltac:(
    intros u v K; unfold make_connection; fa "connection" K;
    rewrite (omap_ag (lane_link to_int) "laneLink" ltac:(intros p q L; unfold lane_link; fa "laneLink" L; reflexivity) _ _ (ag_findall u v "laneLink" (proj1 K))); reflexivity)
    _ _ (ag_findall x y "connection" (proj1 H))). reflexivity.
Qed.
Lemma read_agree n x y : agree x y -> read_map n x = read_map n y.
Proof.
  intros H. unfold Model_Xodr.read_map.
  assert (E : header_offset to_float x = header_offset to_float y).
  { unfold header_offset. pose proof (ag_find1 x y "header" H) as K. destruct (find1 x "header") as [u|], (find1 y "header") as [u'|]; try contradiction; [|reflexivity]. cbn [obind].
    pose proof (ag_find1 u u' "offset" (proj1 K)) as K2. destruct (find1 u "offset") as [v|], (find1 u' "offset") as [v'|]; try contradiction; [|reflexivity].
    fa "offset" K2. reflexivity. }
  rewrite E. destruct (header_offset to_float y) as [hdr|]; [|reflexivity]. cbn [obind].
  rewrite (make_roads_ag hdr _ _ (ag_findall x y "road" H)). destruct (make_roads n hdr (findall y "road") []) as [[q n1]|]; [|reflexivity]. cbn [obind].
  now rewrite (omap_ag _ _ junction_ag _ _ (ag_findall x y "junction" H)).
Qed.

(** ** setting an attribute *)
Lemma xml_rect' (Q : xml -> Prop) : (forall t a k, Forall Q k -> Q (Elem t a k)) -> forall x, Q x.
Proof.
  intros H. fix IH 1. intros [t a k]. apply H. induction k as [|y k IHk]; constructor; [apply IH|exact IHk].
Qed.
Lemma set_unused_agrees t nm v x : used t nm = false -> (t, nm) <> ("laneSection", "s") -> agree x (set_attr t nm v x).
Proof.
  intros U S. revert x. apply xml_rect'. intros t0 a k IH. cbn [set_attr].
  constructor.
  - intros n Un. destruct (String.eqb_spec t0 t) as [->|]; [|reflexivity]. cbn [assoc]. destruct (String.eqb_spec nm n) as [->|]; [congruence|reflexivity].
  - intros ->. destruct (String.eqb_spec "laneSection" t) as [<-|]; [|reflexivity]. cbn [assoc]. destruct (String.eqb_spec nm "s") as [->|]; [congruence|reflexivity].
  - induction IH; cbn [map]; constructor; auto.
Qed.
Lemma set_s_agrees v v' x : number v -> number v' -> agree (set_attr "laneSection" "s" v x) (set_attr "laneSection" "s" v' x).
Proof.
  intros V V'. revert x. apply xml_rect'. intros t0 a k IH. cbn [set_attr].
  constructor.
  - intros n Un. destruct (String.eqb_spec t0 "laneSection") as [->|]; [|reflexivity]. discriminate Un.
  - intros ->. cbn. split; intros _; eauto.
  - induction IH; cbn [map]; constructor; auto.
Qed.
End Attr.
