(** C92: reading and writing the Python parameter server. *)

From Coq Require Import String Ascii List Arith Lia Bool QArith ZArith.
Import ListNotations.
From Verif Require Import Model_BenchRun Proof_BenchRun Model_Params Model_PyParams Spec_PyParams Proof_PyAccess Proof_PyGet.
Local Open Scope string_scope.
Local Open Scope nat_scope.
Local Open Scope list_scope.

(** p["A::B::c"] = v: the parameter is there afterwards, missing groups on the way are
    made, nothing else is touched in any server. *)
Theorem C92_assign : forall ks k h l v,
  Forall clean (ks ++ [k]) -> wf h -> l < length h -> plain h l ks -> no_return h l ks ->
  stored_as_is v -> pv_ok (length h) v ->
  exists h' c, set_item h l (join (ks ++ [k])) v = Some h' /\ walk h' l ks = Some c /\ entry h' c k = Some v /\
    only_puts h h' l ks c k v.
Proof. intros ks k h l v C W L P NR S V. now apply assign_spec. Qed.
Print Assumptions C92_assign.

(** Which values are stored as they are. *)
Theorem C92_stored_as_is : forall j, plain_value j = true -> stored_as_is (PVal j).
Proof. exact plain_as_is. Qed.
Print Assumptions C92_stored_as_is.

(** GetReal("A::B::c") reads what was assigned, whatever the default, and changes nothing. *)
Theorem C92_read_back : forall ks k h l v d,
  Forall clean (ks ++ [k]) -> wf h -> l < length h -> plain h l ks -> no_return h l ks ->
  stored_as_is v -> pv_ok (length h) v -> (forall s, v <> PServer s) ->
  exists h', set_item h l (join (ks ++ [k])) v = Some h' /\ get_typed h' l (join (ks ++ [k])) d = Some (h', v).
Proof.
  intros ks k h l v d C W L P NR S V N. destruct (assign_spec ks k h l v C W L P NR S V) as (h' & c & A1 & A2 & A3 & _).
  exists h'. split; [assumption|]. unfold get_typed. rewrite hierarchy_join; [|apply snoc_ne|assumption]. eapply get_found; eauto.
Qed.
Print Assumptions C92_read_back.

(** A typed read of a parameter that does not exist stores the default and returns it. *)
Theorem C92_default_stored : forall ks k h l d,
  Forall clean (ks ++ [k]) -> wf h -> l < length h -> plain h l ks -> pv_ok (length h) d -> absent h l ks k ->
  exists h' c, get_typed h l (join (ks ++ [k])) d = Some (h', d) /\ walk h' l ks = Some c /\ entry h' c k = Some d /\
    only_puts h h' l ks c k d.
Proof.
  intros ks k h l d C W L P D A. unfold get_typed. rewrite hierarchy_join; [|apply snoc_ne|assumption].
  destruct (get_default_new ks h l k d W L D P A) as (h' & c & A1 & A2 & A3 & A4 & _). exists h', c. auto.
Qed.
Print Assumptions C92_default_stored.

(** So the first default wins: any later read of the same name, with any default, returns
    the same value and changes nothing. *)
Theorem C92_first_default_wins : forall name h l d h' v,
  wf h -> l < length h -> (forall s, d <> PServer s) ->
  get_typed h l name d = Some (h', v) -> forall d', get_typed h' l name d' = Some (h', v).
Proof. intros name h l d h' v W L D H d'. unfold get_typed in *. eapply get_again; eauto. Qed.
Print Assumptions C92_first_default_wins.

(** A typed read never changes a parameter that is there. *)
Theorem C92_get_keeps : forall name h l d h' v, wf h -> l < length h -> get_typed h l name d = Some (h', v) ->
  forall l' k w, entry h l' k = Some w -> entry h' l' k = Some w.
Proof. intros name h l d h' v W L H. exact (get_keeps _ _ _ _ _ _ L W H). Qed.
Print Assumptions C92_get_keeps.

(** It raises exactly if the name is that of a group. *)
Theorem C92_get_raises : forall ks h l d, Forall clean ks -> ks <> [] -> wf h -> l < length h ->
  (get_typed h l (join ks) d = None <-> exists c, walk h l ks = Some c).
Proof. intros ks h l d C N W L. unfold get_typed. rewrite hierarchy_join by assumption. now apply get_none_iff. Qed.
Print Assumptions C92_get_raises.

(** A parameter standing where a group is expected is returned for every name below it,
    and the default is dropped. *)
Theorem C92_shadowed_refuted : forall ks k r h l c v d,
  Forall clean (ks ++ k :: r) -> walk h l ks = Some c -> entry h c k = Some v -> (forall s, v <> PServer s) ->
  get_typed h l (join (ks ++ k :: r)) d = Some (h, v).
Proof.
  intros ks k r h l c v d C Wk E N. unfold get_typed. rewrite hierarchy_join; [|destruct ks; discriminate|assumption].
  eapply get_shadowed; eauto.
Qed.
Print Assumptions C92_shadowed_refuted.

(** p["A::b"] does not read the parameter A::b: a new empty group of that name appears. *)
Theorem C92_item_refuted : forall name h l, wf h -> l < length h -> entry h l name = None ->
  exists h' c, get_item h l name = (h', PServer c) /\ length h <= c /\ nth_error h' c = Some [] /\
    entry h' l name = Some (PServer c) /\
    (forall l' k', l' < length h -> (l', k') <> (l, name) -> entry h' l' k' = entry h l' k').
Proof.
  intros name h l W L E. exists (newkid h l name), (length h). unfold get_item. rewrite E. unfold alloc. fold (newkid h l name).
  split; [reflexivity|]. split; [lia|]. split; [now apply newkid_nth_new|]. split; [now apply newkid_same|].
  intros l' k' Hl N. now apply newkid_some.
Qed.
Print Assumptions C92_item_refuted.

(** p["k", "description"] = v stores nothing. *)
Theorem C92_described_assignment_lost_refuted : forall h l k v h', stored_as_is v -> set_tuple h l k v = Some h' -> h' = h.
Proof. intros h l k v h' S H. unfold set_tuple in H. rewrite S in H. congruence. Qed.
Print Assumptions C92_described_assignment_lost_refuted.

(** p["A::k"] = v where A is an empty list: silently nothing. *)
Theorem C92_empty_list_swallows_refuted : forall a k h l v, clean a -> clean k -> stored_as_is v ->
  entry h l a = Some (PVal (JList [])) -> set_item h l (join [a; k]) v = Some h.
Proof.
  intros a k h l v A K S E. unfold set_item. rewrite S. unfold set_hier. rewrite rsplit_two by assumption.
  rewrite AddChild_single by assumption. now rewrite E.
Qed.
Print Assumptions C92_empty_list_swallows_refuted.

(** p["A::k"] = v where A is any other plain value raises. *)
Theorem C92_assign_below_value : forall a k h l v j, clean a -> clean k -> stored_as_is v ->
  entry h l a = Some (PVal j) -> j <> JList [] -> set_item h l (join [a; k]) v = None.
Proof.
  intros a k h l v j A K S E N. unfold set_item. rewrite S. unfold set_hier. rewrite rsplit_two by assumption.
  rewrite AddChild_single by assumption. rewrite E. destruct j as [?|[|x y]|?]; try reflexivity. congruence.
Qed.
Print Assumptions C92_assign_below_value.

(** p["A::k"] = v where A is a list of groups writes into each of them, and nothing else. *)
Theorem C92_broadcast : forall a k h l v cs, clean a -> clean k -> stored_as_is v -> wf h ->
  entry h l a = Some (PServers cs) ->
  exists h', set_item h l (join [a; k]) v = Some h' /\ length h' = length h /\
    (forall c, In c cs -> entry h' c k = Some v) /\
    (forall c k', k' <> k \/ ~ In c cs -> entry h' c k' = entry h c k').
Proof.
  intros a k h l v cs A K S W E. exists (upd_all h cs k v). unfold set_item. rewrite S. unfold set_hier.
  rewrite rsplit_two by assumption. rewrite AddChild_single by assumption. rewrite E. split; [reflexivity|].
  split; [apply upd_all_length|]. split; [|intros; now apply upd_all_other].
  intros c I. apply upd_all_same; [|assumption]. exact (W _ _ _ E).
Qed.
Print Assumptions C92_broadcast.

(** AddChild("A::B::c", delete=True) empties just that group: its parent gets a new empty
    group, nothing else changes in any server (the old group lives on for its holders). *)
Theorem C92_delete_child : forall ks k h l c v, Forall clean (ks ++ [k]) -> wf h -> l < length h ->
  walk h l ks = Some c -> entry h c k = Some v ->
  exists h' c', AddChild h l (join (ks ++ [k])) true = Some (h', One (PServer c')) /\
    nth_error h' c' = Some [] /\ length h <= c' /\ entry h' c k = Some (PServer c') /\
    (forall l' k', l' < length h -> (l', k') <> (c, k) -> entry h' l' k' = entry h l' k').
Proof.
  intros ks k h l c v C W L Wk E. exists (newkid h c k), (length h).
  assert (Lc : c < length h) by now apply entry_lt in E.
  split; [|split; [now apply newkid_nth_new|split; [lia|split; [now apply newkid_same|]]]].
  - unfold AddChild. apply (delete_child ks h l c k v); auto. pose proof (join_length (ks ++ [k]) C). lia.
  - intros l' k' Hl N. now apply newkid_some.
Qed.
Print Assumptions C92_delete_child.

(** AddChild without delete makes the missing groups only. *)
Theorem C92_add_child : forall ks h l, Forall clean ks -> ks <> [] -> wf h -> l < length h -> plain h l ks ->
  exists h' c, AddChild h l (join ks) false = Some (h', One (PServer c)) /\ walk h' l ks = Some c /\
    only_makes h h' l ks /\ (walk h l ks = Some c /\ h' = h \/ walk h l ks = None /\ length h <= c /\ nth_error h' c = Some []).
Proof.
  intros ks h l C N W L P. destruct (AddChild_plain ks h l C N W L P) as (h' & c & A1 & A2 & A3 & A4 & A5).
  exists h', c. repeat (split; [assumption|]). destruct A5 as [A5|(A5 & A6 & A7 & _)]; auto.
Qed.
Print Assumptions C92_add_child.

(* ---- the hypotheses are met ---- *)
(** The store of [p = ParameterServer(json={"World": {"dt": 0.1}})] in a program with
    another server. *)
Definition h0 : heap := [[("World", PServer 1)]; [("dt", PVal (JAtom (AFloat (1#10)%Q)))]; [("x", PVal (JAtom (AInt 3)))]].
Definition v5 : pv := PVal (JAtom (AFloat 5%Q)).
Lemma clean_of s : s <> "" -> has_colon s = false -> strip s = s -> clean s.
Proof. intros. repeat split; assumption. Qed.
Ltac names := repeat (constructor; [apply clean_of; [discriminate|reflexivity|reflexivity]|]); try constructor.
Lemma h0_wf : wf h0.
Proof.
  intros l k v H. unfold entry, h0 in H. destruct l as [|[|[|l]]]; cbn in H; try (destruct l; discriminate);
  repeat match type of H with (if ?b then _ else _) = _ => destruct b end; try discriminate; injection H as <-; cbn; lia || exact I.
Qed.
Example C92_assign_nonvacuous :
  Forall clean ["World"; "Grid"; "size"] /\ wf h0 /\ plain h0 0 ["World"; "Grid"] /\ no_return h0 0 ["World"; "Grid"] /\
  stored_as_is v5 /\
  set_item h0 0 "World::Grid::size" v5 =
    Some [[("World", PServer 1)]; [("dt", PVal (JAtom (AFloat (1#10)%Q))); ("Grid", PServer 3)]; [("x", PVal (JAtom (AInt 3)))]; [("size", v5)]].
Proof.
  split; [names|]. split; [exact h0_wf|]. split; [cbn; exact I|]. split; [intros c i H; discriminate|].
  split; [now apply plain_as_is|reflexivity].
Qed.
Example C92_get_nonvacuous :
  absent h0 0 ["World"] "x" /\ get_typed h0 0 "World::dt" v5 = Some (h0, PVal (JAtom (AFloat (1#10)%Q))) /\
  get_typed h0 0 "World" v5 = None /\ get_typed h0 0 "World::dt::deep" v5 = Some (h0, PVal (JAtom (AFloat (1#10)%Q))) /\
  (exists h', get_typed h0 0 "World::x" v5 = Some (h', v5) /\ get_typed h' 0 "World::x" (PVal (JAtom ANone)) = Some (h', v5)).
Proof.
  split; [intros c H; cbn in H; injection H as <-; reflexivity|]. repeat (split; [reflexivity|]). eexists. split; reflexivity.
Qed.
Example C92_broadcast_nonvacuous :
  set_item [[("A", PServers [1; 2])]; []; [("b", PVal (JAtom ANone))]] 0 "A::b" v5 = Some [[("A", PServers [1; 2])]; [("b", v5)]; [("b", v5)]].
Proof. reflexivity. Qed.
Example C92_lost_nonvacuous :
  set_item [[("A", PVal (JList []))]] 0 "A::b" v5 = Some [[("A", PVal (JList []))]] /\
  set_item [[("A", v5)]] 0 "A::b" v5 = None /\
  set_tuple h0 0 "World" v5 = Some h0 /\
  (exists h1, set_item [[]] 0 "A::b" v5 = Some h1 /\ fst (get_item h1 0 "A::b") <> h1 /\ snd (get_item h1 0 "A::b") = PServer 2).
Proof. repeat (split; [reflexivity|]). eexists. split; [reflexivity|]. split; [cbn; discriminate|reflexivity]. Qed.
Example C92_delete_nonvacuous :
  AddChild h0 0 "World" true = Some ([[("World", PServer 3)]; [("dt", PVal (JAtom (AFloat (1#10)%Q)))]; [("x", PVal (JAtom (AInt 3)))]; []], One (PServer 3)).
Proof. reflexivity. Qed.
