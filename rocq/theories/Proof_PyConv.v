(** Dictionaries into parameter servers and back. *)

From Coq Require Import String Ascii List Arith Lia Bool QArith ZArith.
Import ListNotations.
From Verif Require Import Model_BenchRun Proof_BenchRun Model_Params Model_PyParams Spec_PyParams Proof_PyAccess Proof_PyGet.
Local Open Scope string_scope.
Local Open Scope nat_scope.
Local Open Scope list_scope.

(* ---- the model's inner loops ---- *)
Lemma conv_item_dict (h : heap) l k d : conv_item h l k (JDict d) =
  match conv_items (h ++ [[]]) (length h) d with Some h2 => Some (upd h2 l k (PServer (length h))) | None => None end.
Proof.
  cbn [conv_item]. set (c := length h). generalize (h ++ [[]]) as h1.
  assert (G : forall d h1, (fix items (h : heap) (d : list (string * json)) {struct d} : option heap :=
               match d with
               | [] => Some h
               | (k', j') :: r => match conv_item h c k' j' with Some h' => items h' r | None => None end
               end) h1 d = conv_items h1 c d).
  { clear. induction d as [|[k j] d IH]; intros h1; [reflexivity|]. cbn [conv_items]. destruct (conv_item h1 c k j); [apply IH|reflexivity]. }
  intros h1. now rewrite G.
Qed.
Lemma conv_item_list (h : heap) l k js : js <> [] -> forallb is_dict js = true -> conv_item h l k (JList js) =
  match of_jsons h js with Some (h2, cs) => Some (upd h2 l k (PServers cs)) | None => None end.
Proof.
  intros N D. cbn [conv_item]. rewrite D.
  assert (G : forall js (h1 : heap), (fix elems (h : heap) (js : list json) {struct js} : option (heap * list loc) :=
                 match js with
                 | [] => Some (h, [])
                 | JDict d :: r =>
                     let c := length h in
                     match (fix items (h : heap) (d : list (string * json)) {struct d} : option heap :=
                              match d with
                              | [] => Some h
                              | (k', j') :: r => match conv_item h c k' j' with Some h' => items h' r | None => None end
                              end) (h ++ [[]]) d with
                     | Some h1 => match elems h1 r with Some (h2, cs) => Some (h2, c :: cs) | None => None end
                     | None => None
                     end
                 | _ :: r => None
                 end) h1 js = of_jsons h1 js).
  { clear. induction js as [|j js IH]; intros h1; [reflexivity|]. destruct j; try reflexivity. cbn [of_jsons].
    unfold of_json, alloc. cbv zeta. pose proof (conv_item_dict h1 0 "" d) as Q. cbn [conv_item] in Q.
    assert (G : forall d h, (fix items (h : heap) (d : list (string * json)) {struct d} : option heap :=
               match d with
               | [] => Some h
               | (k', j') :: r => match conv_item h (length h1) k' j' with Some h' => items h' r | None => None end
               end) h d = conv_items h (length h1) d).
    { clear. induction d as [|[k j] d IH]; intros h; [reflexivity|]. cbn [conv_items]. destruct (conv_item h (length h1) k j); [apply IH|reflexivity]. }
    rewrite G. destruct (conv_items (h1 ++ [[]]) (length h1) d) as [h2|]; [|reflexivity]. rewrite IH. reflexivity. }
  rewrite G. destruct js as [|j js]; [congruence|]. destruct (of_jsons h (j :: js)) as [[h2 cs]|] eqn:E; [|reflexivity].
  destruct cs as [|c cs]; [|reflexivity]. exfalso. destruct j; try discriminate. cbn [of_jsons] in E.
  destruct (of_json h d) as [[? ?]|]; [|discriminate]. destruct (of_jsons h0 js) as [[? ?]|]; discriminate.
Qed.
Lemma conv_item_plain (h : heap) l k j : clean k -> plain_value j = true -> entry h l k = None ->
  conv_item h l k j = Some (upd h l k (PVal j)).
Proof.
  intros C P E. assert (HG : get_typed h l k (PVal j) = Some (upd h l k (PVal j), PVal j)).
  { unfold get_typed. pose proof (hierarchy_join [k]) as HJ. cbn [join] in HJ. rewrite HJ; [|discriminate|now constructor].
    cbn. now rewrite E. }
  destruct j as [a|js|d]; [|destruct js as [|x l']|discriminate]; cbn [conv_item].
  - now rewrite HG.
  - reflexivity.
  - cbn in P. apply negb_true_iff in P. cbn [forallb]. rewrite P. now rewrite HG.
Qed.

(* ---- frame ---- *)
Definition agree (h h' : heap) (f : list loc) : Prop := forall x, In x f -> nth_error h' x = nth_error h x.
Lemma agree_app h h' f g : agree h h' (f ++ g) <-> agree h h' f /\ agree h h' g.
Proof.
  unfold agree. split; [intros A; split; intros x I; apply A; apply in_or_app; auto|].
  intros [A B] x I. apply in_app_or in I as [I|I]; auto.
Qed.

Lemma holds_frame h :
  (forall l d f, holds h l d f -> forall h', agree h h' f -> holds h' l d f) /\
  (forall st d f, holds_entries h st d f -> forall h', agree h h' f -> holds_entries h' st d f) /\
  (forall v j f, holds_value h v j f -> forall h', agree h h' f -> holds_value h' v j f) /\
  (forall cs ds f, holds_list h cs ds f -> forall h', agree h h' f -> holds_list h' cs ds f).
Proof.
  apply holds_mut with
    (P := fun l d f _ => forall h', agree h h' f -> holds h' l d f)
    (P0 := fun st d f _ => forall h', agree h h' f -> holds_entries h' st d f)
    (P1 := fun v j f _ => forall h', agree h h' f -> holds_value h' v j f)
    (P2 := fun cs ds f _ => forall h', agree h h' f -> holds_list h' cs ds f).
  - intros l st d f E _ IH h' A. apply holds_server with st; [|apply IH; intros x I; apply A; now right].
    rewrite A by now left. exact E.
  - intros. constructor.
  - intros k v j f st d fs _ IH1 _ IH2 h' A. apply agree_app in A as [A1 A2]. constructor; auto.
  - intros. now constructor.
  - intros. constructor. auto.
  - intros. constructor. auto.
  - intros. constructor.
  - intros c cs d ds f fs _ IH1 _ IH2 h' A. apply agree_app in A as [A1 A2]. constructor; auto.
Qed.

(* ---- stores ---- *)
Lemma dset_new {V} : forall (st : dct V) k v, ~ In k (map fst st) -> dset st k v = st ++ [(k, v)].
Proof.
  induction st as [|[j w] st IH]; intros k v N; cbn in *; [reflexivity|].
  destruct (String.eqb j k) eqn:E; [apply String.eqb_eq in E; tauto|]. rewrite IH by tauto. reflexivity.
Qed.
Lemma dget_notin {V} : forall (st : dct V) k, ~ In k (map fst st) -> dget st k = None.
Proof.
  induction st as [|[j w] st IH]; intros k N; cbn in *; [reflexivity|].
  destruct (String.eqb j k) eqn:E; [apply String.eqb_eq in E; tauto|]. apply IH. tauto.
Qed.
Lemma upd_new (h : heap) l (st : store) k v : nth_error h l = Some st -> ~ In k (map fst st) ->
  nth_error (upd h l k v) l = Some (st ++ [(k, v)]).
Proof.
  intros E N. unfold upd. rewrite E. rewrite set_nth_same; [now rewrite dset_new|]. apply nth_error_Some. congruence.
Qed.
Lemma nth_lt {A} (h : list A) l st : nth_error h l = Some st -> l < length h.
Proof. intros E. apply nth_error_Some. congruence. Qed.
Lemma nth_app_new (h : heap) : nth_error (h ++ [[]]) (length h) = Some [].
Proof. rewrite nth_error_app2 by lia. now rewrite Nat.sub_diag. Qed.
Lemma holds_entries_app h : forall st d f, holds_entries h st d f -> forall st2 d2 f2, holds_entries h st2 d2 f2 ->
  holds_entries h (st ++ st2) (d ++ d2) (f ++ f2).
Proof.
  induction 1; intros st2 d2 f2 H2; cbn; [assumption|]. rewrite <- app_assoc. constructor; auto.
Qed.
Lemma nodup_app {A} (f g : list A) : NoDup f -> NoDup g -> (forall x, In x f -> ~ In x g) -> NoDup (f ++ g).
Proof.
  induction f as [|a f IH]; intros F G D; cbn; [assumption|]. inversion F; subst. constructor.
  - intros I. apply in_app_or in I as [I|I]; [contradiction|]. apply (D a); [now left|assumption].
  - apply IH; auto. intros x I. apply D. now right.
Qed.

(** The new servers are fresh and distinct. *)
Definition fresh (h h' : heap) (f : list loc) : Prop :=
  NoDup f /\ (forall x, In x f -> length h <= x < length h') /\ length h <= length h'.
Definition keeps_but (h h' : heap) (l : loc) : Prop := forall i, i < length h -> i <> l -> nth_error h' i = nth_error h i.
Definition keeps_all (h h' : heap) : Prop := forall i, i < length h -> nth_error h' i = nth_error h i.

Lemma is_dict_map (ds : list (list (string * json))) : forallb is_dict (map JDict ds) = true.
Proof. induction ds; cbn; auto. Qed.

Lemma fresh_app (h h1 h2 : heap) f g : fresh h h1 f -> fresh h1 h2 g -> fresh h h2 (f ++ g).
Proof.
  intros (A1 & A2 & A3) (B1 & B2 & B3). split; [|split; [|lia]].
  - apply nodup_app; auto. intros x I J. specialize (A2 x I). specialize (B2 x J). lia.
  - intros x I. apply in_app_or in I as [I|I]; [specialize (A2 x I); lia|specialize (B2 x I); lia].
Qed.
Lemma agree_keeps (h h1 h2 : heap) f : fresh h h1 f -> keeps_all h1 h2 -> agree h1 h2 f.
Proof. intros (_ & A & _) K x I. apply K. specialize (A x I). lia. Qed.
Lemma agree_but (h h1 h2 : heap) l f : l < length h -> fresh h h1 f -> keeps_but h1 h2 l -> agree h1 h2 f.
Proof. intros L (_ & A & _) K x I. apply K; specialize (A x I); lia. Qed.

Lemma conv_ok :
  (forall d, clean_dict d -> forall (h : heap) l (st : store), nth_error h l = Some st -> (forall k, In k (map fst d) -> ~ In k (map fst st)) ->
     exists h' es f, conv_items h l d = Some h' /\ nth_error h' l = Some (st ++ es) /\ holds_entries h' es d f /\
       fresh h h' f /\ keeps_but h h' l) /\
  (forall j, clean_value j -> forall (h : heap) l (st : store) k, nth_error h l = Some st -> clean k -> ~ In k (map fst st) ->
     exists h' v f, conv_item h l k j = Some h' /\ nth_error h' l = Some (st ++ [(k, v)]) /\ holds_value h' v j f /\
       fresh h h' f /\ keeps_but h h' l) /\
  (forall ds, clean_dicts ds -> forall h : heap,
     exists h' cs f, of_jsons h (map JDict ds) = Some (h', cs) /\ holds_list h' cs ds f /\ fresh h h' f /\ keeps_all h h').
Proof.
  apply clean_mut with
   (P := fun d _ => forall (h : heap) l (st : store), nth_error h l = Some st -> (forall k, In k (map fst d) -> ~ In k (map fst st)) ->
     exists h' es f, conv_items h l d = Some h' /\ nth_error h' l = Some (st ++ es) /\ holds_entries h' es d f /\
       fresh h h' f /\ keeps_but h h' l)
   (P0 := fun j _ => forall (h : heap) l (st : store) k, nth_error h l = Some st -> clean k -> ~ In k (map fst st) ->
     exists h' v f, conv_item h l k j = Some h' /\ nth_error h' l = Some (st ++ [(k, v)]) /\ holds_value h' v j f /\
       fresh h h' f /\ keeps_but h h' l)
   (P1 := fun ds _ => forall h : heap,
     exists h' cs f, of_jsons h (map JDict ds) = Some (h', cs) /\ holds_list h' cs ds f /\ fresh h h' f /\ keeps_all h h').
  - intros h l st E _. exists h, [], []. split; [reflexivity|]. split; [now rewrite app_nil_r|]. split; [constructor|].
    split; [|intros i _ _; reflexivity]. split; [constructor|]. split; [intros x []|lia].
  - intros k j d Ck Nk _ IHv _ IHd h l st E D.
    destruct (IHv h l st k E Ck) as (h1 & v & f1 & A1 & A2 & A3 & A4 & A5); [apply D; now left|].
    destruct (IHd h1 l (st ++ [(k, v)]) A2) as (h2 & es & f2 & B1 & B2 & B3 & B4 & B5).
    { intros k' I J. rewrite map_app in J. apply in_app_or in J as [J|[J|[]]]; [apply (D k'); [now right|assumption]|].
      cbn in J. subst k'. contradiction. }
    exists h2, ((k, v) :: es), (f1 ++ f2). cbn [conv_items]. rewrite A1. split; [assumption|].
    split; [rewrite B2, <- app_assoc; reflexivity|]. split.
    { constructor; [|assumption]. eapply (proj1 (proj2 (proj2 (holds_frame h1)))); [exact A3|].
      eapply agree_but; [|exact A4|exact B5]. now apply nth_lt in E. }
    split; [eapply fresh_app; eauto|]. intros i Hi N. destruct A4 as (_ & _ & A4). rewrite B5 by (assumption || lia). now apply A5.
  - intros j P h l st k E C N. exists (upd h l k (PVal j)), (PVal j), [].
    split; [apply conv_item_plain; auto; unfold entry; rewrite E; now apply dget_notin|].
    split; [now apply upd_new|]. split; [now constructor|]. split; [|intros i _ Ni; now apply upd_nth_other].
    split; [constructor|]. split; [intros x []|rewrite upd_length; lia].
  - intros d _ IH h l st k E C N. apply nth_lt in E as L.
    destruct (IH (h ++ [[]]) (length h) [] (nth_app_new h)) as (h2 & es & f & A1 & A2 & A3 & A4 & A5); [intros k' _ []|].
    cbn [app] in A2. destruct A4 as (F1 & F2 & F3). rewrite app_length in F2, F3. cbn [length] in F2, F3.
    exists (upd h2 l k (PServer (length h))), (PServer (length h)), (length h :: f).
    rewrite conv_item_dict, A1. split; [reflexivity|].
    assert (E2 : nth_error h2 l = Some st).
    { rewrite A5; [|rewrite app_length; cbn; lia|lia]. rewrite nth_error_app1 by assumption. exact E. }
    split; [now apply upd_new|]. split.
    { constructor. apply holds_server with es; [rewrite upd_nth_other by lia; exact A2|].
      eapply (proj1 (proj2 (holds_frame h2))); [exact A3|]. intros x I. apply upd_nth_other. specialize (F2 x I). lia. }
    split.
    { split; [|split; [|rewrite upd_length; lia]].
      - constructor; [|assumption]. intros I. specialize (F2 _ I). lia.
      - rewrite upd_length. intros x [<-|I]; [lia|]. specialize (F2 x I). lia. }
    intros i Hi Ni. rewrite upd_nth_other by assumption. rewrite A5; [|rewrite app_length; cbn; lia|lia]. now rewrite nth_error_app1.
  - intros d ds _ IH h l st k E C N. apply nth_lt in E as L.
    destruct (IH h) as (h2 & cs & f & A1 & A2 & A3 & A4). destruct A3 as (F1 & F2 & F3).
    exists (upd h2 l k (PServers cs)), (PServers cs), f.
    rewrite conv_item_list by (discriminate || apply is_dict_map). rewrite A1. split; [reflexivity|].
    assert (E2 : nth_error h2 l = Some st) by (rewrite A4 by assumption; exact E).
    split; [now apply upd_new|]. split.
    { inversion A2; subst. constructor.
      eapply (proj2 (proj2 (proj2 (holds_frame h2)))); [exact A2|]. intros x I. apply upd_nth_other. specialize (F2 x I). lia. }
    split; [split; [assumption|rewrite upd_length; split; assumption]|].
    intros i Hi Ni. rewrite upd_nth_other by assumption. now apply A4.
  - intros h. exists h, [], []. split; [reflexivity|]. split; [constructor|]. split; [|intros i _; reflexivity].
    split; [constructor|]. split; [intros x []|lia].
  - intros d ds _ IHd _ IHs h.
    destruct (IHd (h ++ [[]]) (length h) [] (nth_app_new h)) as (h1 & es & f & A1 & A2 & A3 & A4 & A5); [intros k' _ []|].
    cbn [app] in A2. destruct A4 as (F1 & F2 & F3). rewrite app_length in F2, F3. cbn [length] in F2, F3.
    destruct (IHs h1) as (h2 & cs & f2 & B1 & B2 & B3 & B4).
    exists h2, (length h :: cs), ((length h :: f) ++ f2). cbn [map of_jsons]. unfold of_json, alloc. rewrite A1, B1.
    split; [reflexivity|].
    assert (FR : fresh h h1 (length h :: f)).
    { split; [constructor; [|assumption]; intros I; specialize (F2 _ I); lia|]. split; [|lia].
      intros x [<-|I]; [lia|]. specialize (F2 x I). lia. }
    split.
    { constructor; [|assumption]. eapply (proj1 (holds_frame h1)); [|eapply agree_keeps; [exact FR|exact B4]].
      apply holds_server with es; assumption. }
    split; [eapply fresh_app; eauto|]. intros i Hi. rewrite B4 by lia. rewrite A5; [|rewrite app_length; cbn; lia|lia].
    now rewrite nth_error_app1.
Qed.

Lemma of_json_ok d : clean_dict d -> forall h, exists h' l f, of_json h d = Some (h', l) /\ holds h' l d f /\ fresh h h' f /\ keeps_all h h'.
Proof.
  intros C h. destruct (proj2 (proj2 conv_ok) [d] ltac:(constructor; [assumption|constructor]) h) as (h' & cs & f & A1 & A2 & A3 & A4).
  cbn [map of_jsons] in A1. destruct (of_json h d) as [[h1 c]|] eqn:E; [|discriminate]. cbn [of_jsons] in A1.
  injection A1 as -> <-. inversion A2 as [|? ? ? ? f1 fs H1 H2]; subst. inversion H2; subst. rewrite app_nil_r in *.
  exists h', c, f1. auto.
Qed.

(* ---- back to a dictionary ---- *)
Lemma omap_app {A B} (g : A -> option B) l : omap g l = None \/ exists m, omap g l = Some m.
Proof. destruct (omap g l); eauto. Qed.

Lemma to_dict_ok h :
  (forall l d f, holds h l d f -> forall n, length f <= n -> to_dict n h l = Some (marked_dict d)) /\
  (forall st d f, holds_entries h st d f -> forall n, length f <= n ->
     omap (fun kv : string * pv =>
            match snd kv with
            | PVal j => Some (fst kv, j)
            | PServer c => match to_dict n h c with
                           | Some [] => Some (fst kv, missing)
                           | Some d => Some (fst kv, JDict d)
                           | None => None
                           end
            | PServers cs => match omap (to_dict n h) cs with
                             | Some ds => Some (fst kv, JList (map JDict ds))
                             | None => None
                             end
            end) st = Some (marked_dict d)) /\
  (forall v j f, holds_value h v j f -> forall n, length f <= n -> forall k : string,
     match v with
     | PVal j => Some (k, j)
     | PServer c => match to_dict n h c with
                    | Some [] => Some (k, missing)
                    | Some d => Some (k, JDict d)
                    | None => None
                    end
     | PServers cs => match omap (to_dict n h) cs with
                      | Some ds => Some (k, JList (map JDict ds))
                      | None => None
                      end
     end = Some (k, marked j)) /\
  (forall cs ds f, holds_list h cs ds f -> forall n, length f <= n -> omap (to_dict n h) cs = Some (map marked_dict ds)).
Proof.
  apply holds_mut with
  (P := fun l d f _ => forall n, length f <= n -> to_dict n h l = Some (marked_dict d))
  (P0 := fun st d f _ => forall n, length f <= n ->
     omap (fun kv : string * pv =>
            match snd kv with
            | PVal j => Some (fst kv, j)
            | PServer c => match to_dict n h c with
                           | Some [] => Some (fst kv, missing)
                           | Some d => Some (fst kv, JDict d)
                           | None => None
                           end
            | PServers cs => match omap (to_dict n h) cs with
                             | Some ds => Some (fst kv, JList (map JDict ds))
                             | None => None
                             end
            end) st = Some (marked_dict d))
  (P1 := fun v j f _ => forall n, length f <= n -> forall k : string,
     match v with
     | PVal j => Some (k, j)
     | PServer c => match to_dict n h c with
                    | Some [] => Some (k, missing)
                    | Some d => Some (k, JDict d)
                    | None => None
                    end
     | PServers cs => match omap (to_dict n h) cs with
                      | Some ds => Some (k, JList (map JDict ds))
                      | None => None
                      end
     end = Some (k, marked j))
  (P2 := fun cs ds f _ => forall n, length f <= n -> omap (to_dict n h) cs = Some (map marked_dict ds)).
  - intros l st d f E _ IH n L. destruct n as [|n]; [cbn in L; lia|]. cbn [to_dict]. rewrite E. apply IH. cbn in L. lia.
  - reflexivity.
  - intros k v j f st d fs _ IH1 _ IH2 n L. rewrite app_length in L. cbn [omap fst snd].
    rewrite (IH1 n ltac:(lia) k). rewrite (IH2 n) by lia. reflexivity.
  - intros j P n _ k. f_equal. f_equal. destruct j as [a|[|x l]|d]; try reflexivity; [|discriminate].
    cbn [plain_value] in P. apply negb_true_iff in P. cbn [marked]. now rewrite P.
  - intros c d f _ IH n L k. rewrite (IH n L). destruct d as [|[k0 j0] d]; reflexivity.
  - intros c cs d ds f _ IH n L k. rewrite (IH n L). f_equal. f_equal.
    change (marked (JList (map JDict (d :: ds)))) with
      (if forallb is_dict (map JDict (d :: ds)) then JList (map (fun x => match x with JDict d => JDict (map (fun kv => (fst kv, marked (snd kv))) d) | _ => x end) (map JDict (d :: ds)))
       else JList (map JDict (d :: ds))).
    rewrite is_dict_map. f_equal. rewrite !map_map. apply map_ext. reflexivity.
  - reflexivity.
  - intros c cs d ds f fs _ IH1 _ IH2 n L. rewrite app_length in L. cbn [omap map]. rewrite IH1 by lia. now rewrite IH2 by lia.
Qed.

(* ---- marking empty groups ---- *)
Lemma marked_keys d : map fst (marked_dict d) = map fst d.
Proof. unfold marked_dict. rewrite map_map. apply map_ext. reflexivity. Qed.
Lemma marked_clean :
  (forall d, clean_dict d -> clean_dict (marked_dict d)) /\ (forall j, clean_value j -> clean_value (marked j)) /\
  (forall ds, clean_dicts ds -> clean_dicts (map marked_dict ds)).
Proof.
  apply clean_mut with (P := fun d _ => clean_dict (marked_dict d)) (P0 := fun j _ => clean_value (marked j))
    (P1 := fun ds _ => clean_dicts (map marked_dict ds)).
  - constructor.
  - intros k j d C N _ Hv _ Hd. constructor; auto. now rewrite marked_keys.
  - intros j P. destruct j as [a|[|x l]|d]; try (apply cv_plain; reflexivity); [|discriminate].
    cbn [marked]. cbn [plain_value] in P. apply negb_true_iff in P as Q. rewrite Q. apply cv_plain. cbn [plain_value]. now rewrite Q.
  - intros d _ H. destruct d as [|[k j] d]; [now apply cv_plain|]. apply (cv_dict (marked_dict ((k, j) :: d))). exact H.
  - intros d ds _ H.
    assert (E : marked (JList (map JDict (d :: ds))) = JList (map JDict (map marked_dict (d :: ds)))).
    { change (marked (JList (map JDict (d :: ds)))) with
      (if forallb is_dict (map JDict (d :: ds)) then JList (map (fun x => match x with JDict d => JDict (map (fun kv => (fst kv, marked (snd kv))) d) | _ => x end) (map JDict (d :: ds)))
       else JList (map JDict (d :: ds))). rewrite is_dict_map. f_equal. rewrite !map_map. apply map_ext. reflexivity. }
    rewrite E. now apply (cv_dicts (marked_dict d) (map marked_dict ds)).
  - constructor.
  - intros. now constructor.
Qed.
