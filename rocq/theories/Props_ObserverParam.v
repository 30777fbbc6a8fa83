(** C60: the parametric (noisy) observer. *)
From Coq Require Import List NArith ZArith QArith Bool Lia Reals Lra.
From Verif Require Import Base_Real Model_Map Proof_Map Model_World Spec_World Proof_World Proof_World2 Toy_World Model_FrontRear Props_FrontRear
  Model_Distribution Props_Distribution Model_ObserverParam.
Import ListNotations.

Section Lemmas.
  Context {T : Types} (O : Ops T) (G : Type) (seed : N -> G) (u01 : G -> R * G) (polar : G -> (R * R) * G) (zq : R -> R)
          (dev : tState T -> list R -> option (tState T)).

  Lemma set_last_spec {A B} (l : list (A * B)) (s : A) l' : set_last l s = Some l' ->
    removelast l' = removelast l /\ exists a b, last_opt l = Some (a, b) /\ last_opt l' = Some (s, b) /\ length l' = length l.
  Proof.
    revert l'. induction l as [|[a b] r IH]; intros l'; cbn [set_last]; [discriminate|].
    destruct r as [|q r'].
    - intros [= <-]. split; [reflexivity|]. exists a, b. auto.
    - destruct (set_last (q :: r') s) as [l2|] eqn:E; [|discriminate]. intros [= <-].
      destruct (IH _ eq_refl) as (R1 & a0 & b0 & H1 & H2 & H3). destruct l2 as [|q2 l3]; [discriminate|].
      split; [cbn [removelast] in *; f_equal; exact R1|]. exists a0, b0. cbn [last_opt length] in *. auto.
  Qed.

  (** What one deviation does. *)
  Definition deviated (a a' : agent T) (x : list R) : Prop :=
    exists s s' act, last_opt (ag_hist a) = Some (s, act) /\ dev s x = Some s' /\ last_opt (ag_hist a') = Some (s', act) /\
      removelast (ag_hist a') = removelast (ag_hist a) /\ length (ag_hist a') = length (ag_hist a) /\ a' = set_hist a (ag_hist a').

  Lemma add_deviation_spec d m id d' m' : m_sorted m -> add_deviation G u01 polar zq dev d m id = Some (d', m') ->
    m_sorted m' /\ map fst m' = map fst m /\ (forall k, k <> id -> m_find k m' = m_find k m) /\
    exists x a a', sample G u01 polar zq d = Some (x, d') /\ m_find id m = Some a /\ m_find id m' = Some a' /\ deviated a a' x.
  Proof.
    intros Hs. unfold add_deviation. destruct (sample G u01 polar zq d) as [[x d1]|] eqn:S; [|discriminate].
    destruct (m_find id m) as [a|] eqn:F; [|discriminate]. destruct (current_state a) as [s|] eqn:C; [|discriminate].
    destruct (dev s x) as [s'|] eqn:D; [|discriminate]. unfold set_current_state.
    destruct (set_last (ag_hist a) s') as [h|] eqn:L; [|discriminate]. intros [= <- <-].
    destruct (set_last_spec _ _ _ L) as (R1 & s0 & act & A1 & A2 & A3).
    unfold current_state in C. rewrite A1 in C. injection C as ->.
    assert (K : In id (map fst m)). { apply m_find_In in F. apply (in_map fst) in F. exact F. }
    split; [apply m_insert_sorted, Hs|]. split; [apply m_insert_keys_same; assumption|].
    split; [intros k Hk; apply m_find_insert_other, Hk|].
    exists x, a, (set_hist a h). split; [reflexivity|]. split; [reflexivity|]. split; [apply m_find_insert_same|].
    exists s, s', act. repeat split; auto.
  Qed.

  Lemma add_deviations_spec ids : forall d m d' m', NoDup ids -> m_sorted m -> add_deviations G u01 polar zq dev d m ids = Some (d', m') ->
    m_sorted m' /\ map fst m' = map fst m /\ (forall k, ~ In k ids -> m_find k m' = m_find k m) /\
    (exists xs, drun G seed u01 polar zq (repeat OSample (length ids)) d = Some (xs, d') /\
    forall n k, nth_error ids n = Some k -> exists x a a', nth_error xs n = Some x /\ m_find k m = Some a /\ m_find k m' = Some a' /\ deviated a a' x).
  Proof.
    induction ids as [|id r IH]; intros d m d' m' ND Hs; cbn [add_deviations].
    - intros [= <- <-]. split; [exact Hs|]. split; [reflexivity|]. split; [auto|]. exists []. split; [reflexivity|]. intros [|n]; discriminate.
    - destruct (add_deviation G u01 polar zq dev d m id) as [[d1 m1]|] eqn:E; [|discriminate]. intros H.
      inversion ND as [|? ? N1 N2]; subst.
      destruct (add_deviation_spec _ _ _ _ _ Hs E) as (S1 & K1 & F1 & x & a & a' & A1 & A2 & A3 & A4).
      destruct (IH _ _ _ _ N2 S1 H) as (S2 & K2 & F2 & xs & R2 & P2).
      split; [exact S2|]. split; [congruence|].
      split; [intros k Hk; rewrite F2, F1; auto; intros X; apply Hk; cbn; auto|].
      exists (x :: xs). split; [cbn; rewrite A1, R2; reflexivity|].
      intros [|n] k Hn; cbn in Hn.
      + injection Hn as <-. exists x, a, a'. repeat split; auto. rewrite F2; auto.
      + destruct (P2 n k Hn) as (y & b & b' & B1 & B2 & B3 & B4). exists y, b, b'. repeat split; auto.
        rewrite <- F1; [exact B2|]. intros ->. apply N1. apply nth_error_In in Hn. exact Hn.
  Qed.
End Lemmas.

(** Rank of an id among the other agents: how many other agents have a smaller id. *)
Definition rank_among_others (keys : list N) (ego k : N) : nat := length (filter (fun j => N.ltb j k && negb (N.eqb j ego)) keys).

Lemma sorted_keys_nth {V} (m : kmap V) (ego k : N) : m_sorted m -> In k (map fst m) -> k <> ego ->
  nth_error (filter (fun j => negb (N.eqb j ego)) (map fst m)) (rank_among_others (map fst m) ego k) = Some k.
Proof.
  induction m as [|[j v] r IH]; intros Hs Hk Hne; [destruct Hk|]. pose proof (sorted_tail _ _ Hs) as Ht.
  pose proof (sorted_head_lt _ _ _ Hs) as Hlt. cbn [map fst] in *.
  destruct Hk as [<-|Hk].
  - assert (Z : rank_among_others (j :: map fst r) ego j = 0%nat).
    { unfold rank_among_others. cbn [filter]. rewrite N.ltb_irrefl. cbn [andb].
      assert (E : filter (fun i => N.ltb i j && negb (N.eqb i ego)) (map fst r) = []).
      { clear -Hlt. induction r as [|[a b] r IH]; [reflexivity|]. cbn [map fst filter].
        assert (j < a)%N by (apply (Hlt (a, b)); left; reflexivity). destruct (N.ltb_spec a j); [lia|]. cbn. apply IH. intros q Hq; apply Hlt; right; exact Hq. }
      rewrite E. reflexivity. }
    rewrite Z. cbn [filter]. destruct (N.eqb_spec j ego); [congruence|]. reflexivity.
  - assert (j < k)%N. { apply in_map_iff in Hk as ([a b] & E & Hin). cbn in E. subst a. apply (Hlt (k, b) Hin). }
    unfold rank_among_others in *. cbn [filter]. destruct (N.ltb_spec j k); [|lia]. cbn [andb].
    destruct (N.eqb_spec j ego); cbn [negb length nth_error]; apply IH; auto.
Qed.

(** C60: the observed world is the clone of the world with the current state of every agent deviated by one sample: the ego's by a
    sample of the ego distribution, the others', in order of their ids, by successive samples of the other distribution. Nothing
    else changes: older history, actions, models, time, and the spatial index (which still holds the true positions). *)
Theorem C60_every_current_state_deviated_once :
  forall (T : Types) (O : Ops T) (G : Type) seed u01 polar zq dev (po po' : pobs G) (w : world T) id (ow : observed T),
  world_ok w -> (po_only po = [] \/ In id (po_only po)) ->
  param_observe O G u01 polar zq dev po w id = Some (po', ow) ->
  ow_ego ow = id /\ ow_world ow = set_agents (clone_world O w) (w_agents (ow_world ow)) /\
  map fst (w_agents (ow_world ow)) = map fst (w_agents w) /\ po_only po' = po_only po /\
  (exists x, sample G u01 polar zq (po_ego po) = Some (x, po_ego po') /\
     exists a a', get_agent w id = Some a /\ get_agent (ow_world ow) id = Some a' /\ deviated dev (clone_agent O a) a' x) /\
  (exists xs, drun G seed u01 polar zq (repeat OSample (pred (length (w_agents w)))) (po_others po) = Some (xs, po_others po') /\
     forall k a, get_agent w k = Some a -> k <> id ->
       exists x a', nth_error xs (rank_among_others (map fst (w_agents w)) id k) = Some x /\
         get_agent (ow_world ow) k = Some a' /\ deviated dev (clone_agent O a) a' x).
Proof.
  intros T O G seed u01 polar zq dev po po' w id ow Hok Hn. unfold param_observe.
  assert (C : negb (match po_only po with [] => true | _ => false end) && negb (existsb (N.eqb id) (po_only po)) = false).
  { destruct Hn as [->|Hin]; [reflexivity|]. apply andb_false_iff. right. apply negb_false_iff. apply existsb_exists. exists id. split; [exact Hin|apply N.eqb_refl]. }
  rewrite C. clear C.
  destruct (m_find id (w_agents w)) as [e|] eqn:Fe; [|discriminate].
  destruct (clone_world_spec O w Hok) as (Ca & _).
  assert (Hs : m_sorted (w_agents (clone_world O w))) by exact (proj1 (clone_world_ok O w Hok)).
  assert (Kc : map fst (w_agents (clone_world O w)) = map fst (w_agents w)).
  { rewrite Ca, map_map. apply map_ext. intros [? ?]. reflexivity. }
  destruct (add_deviation G u01 polar zq dev (po_ego po) (w_agents (clone_world O w)) id) as [[de m1]|] eqn:E1; [|discriminate].
  destruct (add_deviations G u01 polar zq dev (po_others po) m1 _) as [[dn m2]|] eqn:E2; [|discriminate].
  intros [= <- <-]. cbn [ow_ego ow_world po_only po_ego po_others].
  destruct (add_deviation_spec G u01 polar zq dev _ _ _ _ _ Hs E1) as (S1 & K1 & F1 & x & a & a' & A1 & A2 & A3 & A4).
  rewrite Kc in E2.
  assert (ND : NoDup (filter (fun k => negb (N.eqb k id)) (map fst (w_agents w)))).
  { apply NoDup_filter, m_sorted_NoDup. exact (proj1 Hok). }
  destruct (add_deviations_spec G seed u01 polar zq dev _ _ _ _ _ ND S1 E2) as (S2 & K2 & F2 & xs & R2 & P2).
  assert (Wa : w_agents (set_agents (clone_world O w) m2) = m2) by reflexivity.
  split; [reflexivity|]. split; [rewrite Wa; reflexivity|]. split; [rewrite Wa; congruence|]. split; [reflexivity|]. split.
  - exists x. split; [exact A1|]. exists e, a'. split; [exact Fe|]. split.
    + unfold get_agent. rewrite Wa, F2; [exact A3|]. intros X. apply filter_In in X as [_ X]. rewrite N.eqb_refl in X. discriminate.
    + rewrite Ca, m_find_map, Fe in A2. cbn in A2. injection A2 as <-. exact A4.
  - exists xs. split.
    + rewrite <- R2. f_equal. f_equal. 
      assert (I : In id (map fst (w_agents w))) by (apply m_find_In in Fe; apply (in_map fst) in Fe; exact Fe).
      pose proof (m_sorted_NoDup _ (proj1 Hok)) as ND0. clear -I ND0. rewrite <- (map_length fst). revert I ND0.
      induction (map fst (w_agents w)) as [|j l IH]; intros I ND0; [destruct I|]. inversion ND0 as [|? ? N1 N2]; subst. cbn [filter length pred].
      destruct (N.eqb_spec j id) as [->|Hne]; cbn [negb length].
      * assert (Q : filter (fun k => negb (N.eqb k id)) l = l).
        { clear -N1. induction l as [|a l IH]; [reflexivity|]. cbn. destruct (N.eqb_spec a id) as [->|]; [exfalso; apply N1; left; reflexivity|].
          cbn. f_equal. apply IH. intros X; apply N1; right; exact X. }
        rewrite Q. reflexivity.
      * destruct I as [->|I]; [congruence|]. specialize (IH I N2). rewrite <- IH. destruct l; [destruct I|reflexivity].
    + intros k b Fb Hne. unfold get_agent in Fb.
      assert (Ik : In k (map fst (w_agents w))) by (apply m_find_In in Fb; apply (in_map fst) in Fb; exact Fb).
      destruct (P2 _ _ (sorted_keys_nth _ _ _ (proj1 Hok) Ik Hne)) as (y & c & c' & B1 & B2 & B3 & B4).
      exists y, c'. split; [exact B1|]. split; [exact B3|].
      rewrite F1, Ca, m_find_map, Fb in B2 by exact Hne. cbn in B2. injection B2 as <-. exact B4.
Qed.
Print Assumptions C60_every_current_state_deviated_once.

(** C60: agents not in a non-empty "observe only for" list see the exact clone, and no sample is consumed. *)
Theorem C60_unlisted_agents_see_the_truth :
  forall (T : Types) (O : Ops T) (G : Type) u01 polar zq dev (po : pobs G) (w : world T) id,
  po_only po <> [] -> ~ In id (po_only po) ->
  param_observe O G u01 polar zq dev po w id = Some (po, mkObserved (clone_world O w) id).
Proof.
  intros T O G u01 polar zq dev po w id H1 H2. unfold param_observe.
  destruct (po_only po) as [|i l] eqn:E; [congruence|]. cbn [negb andb].
  destruct (existsb (N.eqb id) (i :: l)) eqn:X; [|reflexivity].
  exfalso. apply H2. apply existsb_exists in X as (y & Hy & Q). apply N.eqb_eq in Q. congruence.
Qed.
Print Assumptions C60_unlisted_agents_see_the_truth.

Local Open Scope R_scope.
(** C60: the deviation of a state: time and further components stay; a longitudinal deviation d0 moves the vehicle by d0 along its
    heading; heading and velocity get the third and fourth component. *)
Theorem C60_state_deviation :
  forall t x y th v rest d0 d1 d2 d3 more,
  exists x' y', deviate_vec (t :: x :: y :: th :: v :: rest) (d0 :: d1 :: d2 :: d3 :: more) = Some (t :: x' :: y' :: th + d2 :: v + d3 :: rest) /\
    (d1 = 0 -> x' - x = d0 * cos th /\ y' - y = d0 * sin th) /\
    (* displacement along the heading and to its left *)
    (x' - x) * cos th + (y' - y) * sin th = d0 + d1 * sin (2 * th) /\
    - (x' - x) * sin th + (y' - y) * cos th = d1 * cos (2 * th).
Proof.
  intros t x y th v rest d0 d1 d2 d3 more. exists (x + (d0 * cos th + d1 * sin th)), (y + (d0 * sin th + d1 * cos th)).
  pose proof (sin2_cos2 th) as Q. unfold Rsqr in Q. rewrite sin_2a, cos_2a.
  split; [reflexivity|]. split; [intros ->; split; ring|]. split.
  - transitivity (d0 * (sin th * sin th + cos th * cos th) + 2 * d1 * sin th * cos th); [ring|]. rewrite Q. ring.
  - ring.
Qed.
Print Assumptions C60_state_deviation.

(** C60: the second component is NOT an orthogonal deviation: it is one only for headings along the coordinate axes; at 45 degrees it
    moves the vehicle purely along its heading. *)
Theorem C60_lateral_deviation_orthogonal_refuted :
  (forall x y th d1, d1 <> 0 ->
     forall t v rest d2 d3 x' y' th' v', deviate_vec (t :: x :: y :: th :: v :: rest) [0; d1; d2; d3] = Some (t :: x' :: y' :: th' :: v' :: rest) ->
     ((x' - x) * cos th + (y' - y) * sin th = 0 <-> sin (2 * th) = 0)) /\
  (forall d1, exists x' y', deviate_vec [0; 0; 0; PI / 4; 0] [0; d1; 0; 0] = Some [0; x'; y'; PI / 4 + 0; 0 + 0] /\
     x' = d1 * cos (PI / 4) /\ y' = d1 * sin (PI / 4)).
Proof.
  split.
  - intros x y th d1 Hd t v rest d2 d3 x' y' th' v' [= <- <- _ _].
    match goal with |- ?e = 0 <-> _ => assert (E : e = d1 * sin (2 * th)) by (rewrite sin_2a; ring) end. rewrite E. split; [|intros ->; ring].
    intros H. apply Rmult_integral in H as [H|H]; [congruence|exact H].
  - intros d1. do 2 eexists. split; [reflexivity|]. rewrite cos_PI4, sin_PI4. split; ring.
Qed.
Print Assumptions C60_lateral_deviation_orthogonal_refuted.

(** C60: with the default configuration (mean of dimension 3) a noisy observation is always an out-of-range access. *)
Theorem C60_default_configuration_fails :
  forall (T : Types) (O : Ops T) (G : Type) seed u01 polar zq (vec_of : tState T -> list R) (of_vec : list R -> tState T) tr (de dn : dist G) (w : world T) id,
  make_dist G seed TMultivariate (dp_default tr) = Some de -> make_dist G seed TMultivariate (dp_default tr) = Some dn ->
  param_observe O G u01 polar zq (fun s x => option_map of_vec (deviate_vec (vec_of s) x)) (mkPobs de dn []) w id = None.
Proof.
  intros T O G seed u01 polar zq vec_of of_vec tr de dn w id. cbn [make_dist dp_default dp_mean_vec dp_transform dp_seed].
  intros [= <-] [= <-]. unfold param_observe. cbn [po_only po_ego negb andb].
  destruct (m_find id (w_agents w)) as [e|]; [|reflexivity].
  assert (Z : forall m, add_deviation G u01 polar zq (fun s x => option_map of_vec (deviate_vec (vec_of s) x))
    (DMulti [1; 2; 3] tr (seed 1234%N) None) m id = None).
  { intros m. unfold add_deviation. cbn [sample]. destruct (_ && _) eqn:L; [|reflexivity].
    apply andb_true_iff in L as [_ L]. apply PeanoNat.Nat.eqb_eq in L. cbn [length] in L.
    destruct tr as [|r1 [|r2 [|r3 [|r4 tr]]]]; try discriminate L. cbn [combine map fst snd].
    destruct (m_find id m) as [a|]; [|reflexivity]. destruct (current_state a) as [s|]; [|reflexivity].
    unfold deviate_vec. destruct (vec_of s) as [|? [|? [|? [|? [|? ?]]]]]; reflexivity. }
  rewrite Z. reflexivity.
Qed.
Print Assumptions C60_default_configuration_fails.

(** C60: copying the observer forgets the "observe only for" list: the copy makes every agent's observation noisy. *)
Theorem C60_copy_keeps_restriction_refuted :
  forall (G : Type) (po : pobs G), po_only (copy_pobs po) = [] /\ po_ego (copy_pobs po) = po_ego po /\ po_others (copy_pobs po) = po_others po.
Proof. intros G po. repeat split. Qed.
Print Assumptions C60_copy_keeps_restriction_refuted.

(** C60: spatial queries on the observed world do NOT use the deviated states: an agent that is observed inside the area is missed. *)
Definition shift10 (s : tState TT) (x : list R) : option (tState TT) := Some (s + 10)%Z.
Definition po0 : pobs nat := mkPobs (DFixed []) (DFixed []) [].
Theorem C60_spatial_queries_see_deviated_states_refuted :
  exists (w : world TT) ow po' a',
    world_ok w /\ index_fresh TO w /\ box_contract TO /\
    param_observe TO nat cgen_u cgen_p (fun u => u) shift10 po0 w 1%N = Some (po', ow) /\
    get_agent (ow_world ow) 2%N = Some a' /\ current_state a' = Some 13%Z /\ collide TO tt 13%Z (12, 14)%Z = true /\
    get_agents_intersecting TO (ow_world ow) (12, 14)%Z = Some [].
Proof.
  exists (toy_line [(1, 0%Z); (2, 3%Z)]%N).
  set (r := param_observe _ _ _ _ _ _ _ _ _). vm_compute in r. subst r. do 3 eexists. split.
  { split; [repeat constructor|]. split; [|discriminate]. intros k a H. apply m_find_In in H. cbn in H.
    destruct H as [H|[H|[]]]; injection H as <- <-; (split; [reflexivity|]); unfold agent_ok, kept; cbn; split; (discriminate || lia). }
  split; [reflexivity|]. split; [exact toy_box|]. repeat (split; [reflexivity|]). reflexivity.
Qed.
Print Assumptions C60_spatial_queries_see_deviated_states_refuted.

(** Example: the world of the last theorem is observed with noise; both agents are deviated, a listed agent too, an unlisted one not. *)
Example C60_nonvacuous :
  exists w : world TT, world_ok w /\
    (exists po' ow a1 a2, param_observe TO nat cgen_u cgen_p (fun u => u) shift10 po0 w 1%N = Some (po', ow) /\
      get_agent (ow_world ow) 1%N = Some a1 /\ current_state a1 = Some 10%Z /\ get_agent (ow_world ow) 2%N = Some a2 /\ current_state a2 = Some 13%Z) /\
    param_observe TO nat cgen_u cgen_p (fun u => u) shift10 (mkPobs (DFixed []) (DFixed []) [2%N]) w 1%N <> None /\
    exists s, deviate_vec [0; 1; 2; 0; 5] [3; 0; 0; 1] = Some s.
Proof.
  exists (toy_line [(1, 0%Z); (2, 3%Z)]%N). split.
  { split; [repeat constructor|]. split; [|discriminate]. intros k a H. apply m_find_In in H. cbn in H.
    destruct H as [H|[H|[]]]; injection H as <- <-; (split; [reflexivity|]); unfold agent_ok, kept; cbn; split; (discriminate || lia). }
  split; [|split].
  - set (r := param_observe _ _ _ _ _ _ _ _ _). vm_compute in r. subst r. do 4 eexists. repeat (split; [reflexivity|]). reflexivity.
  - discriminate.
  - eexists. reflexivity.
Qed.
