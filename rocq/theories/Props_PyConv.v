(** C93: dictionaries, copies and the list handed to C++ of the Python parameter server. *)

From Coq Require Import String Ascii List Arith Lia Bool QArith ZArith.
Import ListNotations.
From Verif Require Import Model_BenchRun Proof_BenchRun Model_Params Model_PyParams Spec_PyParams Proof_PyAccess Proof_PyGet Proof_PyConv Proof_PyCond.
Local Open Scope string_scope.
Local Open Scope nat_scope.
Local Open Scope list_scope.

(** ParameterServer(json=d): new servers, all different, that hold [d]; the existing
    servers are untouched. *)
Theorem C93_from_dict : forall h d, clean_dict d ->
  exists h' l f, of_json h d = Some (h', l) /\ holds h' l d f /\ NoDup f /\
    (forall x, In x f -> length h <= x < length h') /\ (forall i, i < length h -> nth_error h' i = nth_error h i).
Proof.
  intros h d C. destruct (of_json_ok d C h) as (h' & l & f & A1 & A2 & (A3 & A4 & _) & A5). exists h', l, f. auto.
Qed.
Print Assumptions C93_from_dict.

(** ConvertToDict: what the server holds, with empty groups written as "MISSING". *)
Theorem C93_to_dict : forall h l d f, holds h l d f -> forall n, length f <= n -> to_dict n h l = Some (marked_dict d).
Proof. intros h l d f H n L. exact (proj1 (to_dict_ok h) l d f H n L). Qed.
Print Assumptions C93_to_dict.

(** Without empty groups nothing is lost on the way there and back. *)
Theorem C93_roundtrip : forall h d, clean_dict d -> filled_dict d ->
  exists h' l n0, of_json h d = Some (h', l) /\ forall n, n0 <= n -> to_dict n h' l = Some d.
Proof.
  intros h d C F. destruct (of_json_ok d C h) as (h' & l & f & A1 & A2 & _). exists h', l, (length f). split; [assumption|].
  intros n L. rewrite (C93_to_dict _ _ _ _ A2 n L). now rewrite filled_marked_dict.
Qed.
Print Assumptions C93_roundtrip.

(** clone(): other servers that hold the same (up to the empty groups); later changes of
    one of the two do not show in the other. *)
Theorem C93_clone : forall h l d f, holds h l d f -> clean_dict d -> (forall x, In x f -> x < length h) ->
  forall n, length f <= n ->
  exists h' l' f', clone n h l = Some (h', l') /\ holds h' l' (marked_dict d) f' /\ holds h' l d f /\
    (forall x, In x f -> ~ In x f') /\
    (forall h2, (forall x, In x f -> nth_error h2 x = nth_error h' x) -> holds h2 l d f) /\
    (forall h2, (forall x, In x f' -> nth_error h2 x = nth_error h' x) -> holds h2 l' (marked_dict d) f').
Proof.
  intros h l d f H C B n L. unfold clone. rewrite (C93_to_dict _ _ _ _ H n L).
  destruct (of_json_ok _ (proj1 marked_clean d C) h) as (h' & l' & f' & A1 & A2 & (A3 & A4 & A5) & A6).
  assert (K : holds h' l d f) by (eapply (proj1 (holds_frame h)); [exact H|]; intros x I; apply A6; auto).
  exists h', l', f'. split; [assumption|]. split; [assumption|]. split; [assumption|]. split.
  - intros x I J. specialize (B x I). specialize (A4 x J). lia.
  - split; intros h2 Q; eapply (proj1 (holds_frame h')); eauto.
Qed.
Print Assumptions C93_clone.

Theorem C93_clone_same : forall h l d f, holds h l d f -> clean_dict d -> filled_dict d -> (forall x, In x f -> x < length h) ->
  forall n, length f <= n -> exists h' l' f', clone n h l = Some (h', l') /\ holds h' l' d f' /\ holds h' l d f /\ (forall x, In x f -> ~ In x f').
Proof.
  intros h l d f H C F B n L. destruct (C93_clone h l d f H C B n L) as (h' & l' & f' & A1 & A2 & A3 & A4 & _).
  rewrite filled_marked_dict in A2 by assumption. exists h', l', f'. auto.
Qed.
Print Assumptions C93_clone_same.

Lemma lookup_marked : forall ks d x, ks <> [] -> lookup (JDict d) ks = Some x -> lookup (JDict (marked_dict d)) ks = Some (marked x).
Proof.
  assert (G : forall d k, jget (marked_dict d) k = match jget d k with Some x => Some (marked x) | None => None end).
  { induction d as [|[a w] d IH]; intros k; cbn; [reflexivity|]. destruct (String.eqb a k); [reflexivity|apply IH]. }
  induction ks as [|k ks IH]; intros d x N H; [congruence|]. cbn [lookup] in *. rewrite G. destruct (jget d k) as [w|]; [|discriminate].
  destruct ks as [|k2 ks]; [cbn in *; congruence|]. destruct w as [| |d2]; try discriminate.
  assert (Q : marked (JDict d2) = JDict (marked_dict d2)).
  { destruct d2 as [|[? ?] d2]; [|reflexivity]. discriminate. }
  rewrite Q. apply IH; [discriminate|exact H].
Qed.

(** The copy has the string "MISSING" wherever the original has an empty group. *)
Theorem C93_clone_empty_refuted : forall h l d f ks, holds h l d f -> clean_dict d -> (forall x, In x f -> x < length h) ->
  ks <> [] -> lookup (JDict d) ks = Some (JDict []) -> forall n, length f <= n ->
  exists h' l' d' f', clone n h l = Some (h', l') /\ holds h' l' d' f' /\ lookup (JDict d') ks = Some (JAtom (AStr "MISSING")).
Proof.
  intros h l d f ks H C B N E n L. destruct (C93_clone h l d f H C B n L) as (h' & l' & f' & A1 & A2 & _).
  exists h', l', (marked_dict d), f'. split; [assumption|]. split; [assumption|]. exact (lookup_marked ks d _ N E).
Qed.
Print Assumptions C93_clone_empty_refuted.

(** GetCondensedParamList: each parameter of a type C++ takes, under its full name, once;
    nothing else. *)
Theorem C93_condensed : forall h l d f, holds h l d f -> clean_dict d -> forall n, length f <= n ->
  exists r, condensed n h l = Some r /\ NoDup (map fst r) /\
    forall name x, In (name, x) r <-> exists ks, name = join ks /\ lookup (JDict d) ks = Some x /\ sendable x.
Proof.
  intros h l d f H C n L. destruct (proj1 (condensed_ok h) l d f H C n L) as (r & A1 & A2 & A3). exists r.
  split; [assumption|]. split; [assumption|]. intros name x. rewrite A3. split; intros (ks & K1 & K2 & K3); exists ks;
  (split; [assumption|split; [assumption|now apply sendable_iff]]).
Qed.
Print Assumptions C93_condensed.

(** In particular parameters that are None, a list of integers or sit in a list of groups
    do not reach C++, silently. *)
Theorem C93_lost_refuted : forall h l d f ks x, holds h l d f -> clean_dict d -> lookup (JDict d) ks = Some x -> ks <> [] ->
  x = JAtom ANone \/ (exists z l, x = JList (JAtom (AInt z) :: l)) \/ (exists e l, x = JList (JDict e :: l)) ->
  forall n, length f <= n -> exists r, condensed n h l = Some r /\ ~ In (join ks) (map fst r).
Proof.
  intros h l d f ks x H C E N X n L. destruct (C93_condensed h l d f H C n L) as (r & A1 & A2 & A3). exists r. split; [assumption|].
  intros I. apply in_map_iff in I as ((nm & y) & Q & I). cbn in Q. subst nm. apply A3 in I as (ks' & K1 & K2 & K3).
  assert (Ks : ks' <> []) by (intros ->; cbn in K2; injection K2 as <-; inversion K3).
  assert (CV : clean_value (JDict d)) by now apply cv_dict.
  assert (Q : ks = ks') by (apply join_inj; auto; eapply lookup_clean; eauto).
  subst ks'. rewrite E in K2. injection K2 as <-. destruct X as [->|[(z & l' & ->)|(e & l' & ->)]].
  - inversion K3.
  - inversion K3 as [| | | |q Q|q Q]; destruct q; discriminate.
  - inversion K3 as [| | | |q Q|q Q]; destruct q; discriminate.
Qed.
Print Assumptions C93_lost_refuted.

(* ---- the hypotheses are met ---- *)
Lemma clean_of s : s <> "" -> has_colon s = false -> strip s = s -> clean s.
Proof. intros. repeat split; assumption. Qed.
Ltac cln := apply clean_of; [discriminate|reflexivity|reflexivity].
Definition fl (q : Q) := JAtom (AFloat q).
Definition d0 : list (string * json) :=
  [("World", JDict [("dt", fl (1#5)); ("lims", JList [fl 1; fl 2])]); ("n", JAtom (AInt 3)); ("agents", JList [JDict [("v", fl 3)]; JDict []])].
Definition d1 : list (string * json) := [("A", JDict []); ("x", JAtom ANone); ("y", JList [JAtom (AInt 1)])].
Lemma d0_clean : clean_dict d0.
Proof.
  unfold d0. apply cd_cons; [cln|cbn; intuition discriminate| |].
  - apply cv_dict. apply cd_cons; [cln|cbn; intuition discriminate|now apply cv_plain|].
    apply cd_cons; [cln|cbn; intuition discriminate|now apply cv_plain|constructor].
  - apply cd_cons; [cln|cbn; intuition discriminate|now apply cv_plain|].
    apply cd_cons; [cln|intros []| |constructor].
    apply (cv_dicts [("v", fl 3)] [[]]). apply cds_cons; [|apply cds_cons; constructor].
    apply cd_cons; [cln|intros []|now apply cv_plain|constructor].
Qed.
Lemma d0_filled : filled_dict d0.
Proof.
  unfold filled_dict, d0. cbn [map snd]. constructor; [|constructor; [constructor|constructor; [|constructor]]].
  - apply fl_dict; [discriminate|]. cbn [map snd]. constructor; [constructor|]. constructor; [|constructor]. now apply fl_list.
  - apply (fl_dicts [[("v", fl 3)]; []]). cbn. repeat constructor.
Qed.
Lemma d1_clean : clean_dict d1.
Proof.
  unfold d1. apply cd_cons; [cln|cbn; intuition discriminate|apply cv_dict; constructor|].
  apply cd_cons; [cln|cbn; intuition discriminate|now apply cv_plain|]. apply cd_cons; [cln|intros []|now apply cv_plain|constructor].
Qed.
Example C93_nonvacuous :
  of_json [[]] d0 = Some ([[]; [("World", PServer 2); ("n", PVal (JAtom (AInt 3))); ("agents", PServers [3; 4])];
     [("dt", PVal (fl (1#5))); ("lims", PVal (JList [fl 1; fl 2]))]; [("v", PVal (fl 3))]; []], 1) /\
  (forall h' l, of_json [[]] d0 = Some (h', l) ->
     to_dict 5 h' l = Some d0 /\ condensed 5 h' l = Some [("World::dt", fl (1#5)); ("World::lims", JList [fl 1; fl 2]); ("n", JAtom (AInt 3))]).
Proof. split; [reflexivity|]. intros h' l H. injection H as <- <-. split; reflexivity. Qed.
(** The copy of {"A": {}} takes no parameter below A any more. *)
Example C93_empty_nonvacuous :
  exists h1 l1 h2 l2, of_json [] d1 = Some (h1, l1) /\ clone 5 h1 l1 = Some (h2, l2) /\
    entry h2 l2 "A" = Some (PVal (JAtom (AStr "MISSING"))) /\ condensed 5 h1 l1 = Some [] /\
    set_item h1 l1 "A::b" (PVal (JAtom (AInt 1))) <> None /\ set_item h2 l2 "A::b" (PVal (JAtom (AInt 1))) = None /\
    get_typed h2 l2 "A::b" (PVal (JAtom (AInt 1))) = Some (h2, PVal (JAtom (AStr "MISSING"))).
Proof.
  do 4 eexists. split; [reflexivity|]. split; [reflexivity|]. repeat (split; [reflexivity|]). split; [discriminate|]. split; reflexivity.
Qed.
