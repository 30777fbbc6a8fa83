(* A planar instance of the simulation core with axis-parallel boxes, for the collision evaluators:
   states are positions, shapes are half extents, the index is searched by squared distance. *)
From Coq Require Import List NArith ZArith QArith Bool Permutation Sorted Lia.
From Verif Require Import Model_Map Model_World Spec_World Proof_Map.
Import ListNotations.

Section Sort.
  Context {A : Type} (key : A -> Z).
  Fixpoint kins (e : A) (l : list A) : list A :=
    match l with [] => [e] | e' :: r => if (key e <=? key e')%Z then e :: l else e' :: kins e r end.
  Definition ksort (l : list A) : list A := fold_right kins [] l.
  Lemma kins_perm e l : Permutation (kins e l) (e :: l).
  Proof.
    induction l as [|e' r IH]; cbn; [reflexivity|]. destruct (_ <=? _)%Z; [reflexivity|].
    rewrite IH. apply perm_swap.
  Qed.
  Lemma ksort_perm l : Permutation (ksort l) l.
  Proof. induction l as [|e r IH]; cbn; [reflexivity|]. rewrite kins_perm. now constructor. Qed.
  Lemma kins_sorted e l : StronglySorted (fun a b => key a <= key b)%Z l ->
    StronglySorted (fun a b => key a <= key b)%Z (kins e l).
  Proof.
    induction l as [|e' r IH]; cbn; intros H; [repeat constructor|].
    inversion H as [|? ? Hs HF]; subst. destruct (Z.leb_spec (key e) (key e')) as [L|L].
    - constructor; [exact H|]. constructor; [exact L|]. rewrite Forall_forall in *.
      intros x Hx. specialize (HF x Hx). lia.
    - constructor; [auto|]. apply Forall_forall. intros x Hx.
      apply (Permutation_in _ (kins_perm e r)) in Hx as [<-|Hx]; [lia|].
      rewrite Forall_forall in HF. auto.
  Qed.
  Lemma ksort_sorted l : StronglySorted (fun a b => key a <= key b)%Z (ksort l).
  Proof. induction l as [|e r IH]; cbn; [constructor|]. apply kins_sorted, IH. Qed.
  Lemma ksort_split l : forall k e e', In e (firstn k (ksort l)) -> In e' (skipn k (ksort l)) ->
    (key e <= key e')%Z.
  Proof.
    pose proof (ksort_sorted l) as Hs. induction (ksort l) as [|x r IH]; intros k e e' He He'.
    + rewrite firstn_nil in He; destruct He.
    + destruct k as [|k]; [destruct He|]. cbn in He, He'.
      inversion Hs as [|? ? Hs' HF]; subst. destruct He as [<-|He]; [|eauto].
      rewrite Forall_forall in HF. apply HF.
      rewrite <- (firstn_skipn k r). apply in_or_app; now right.
  Qed.
End Sort.

Definition pt := (Z * Z)%type.
Record rect := mkRect { r_c : pt; r_h : pt }.
Definition gap (p c h : Z) : Z := Z.max 0 (Z.abs (p - c) - h).
Definition dist2 (b : rect) (p : pt) : Z :=
  let gx := gap (fst p) (fst (r_c b)) (fst (r_h b)) in
  let gy := gap (snd p) (snd (r_c b)) (snd (r_h b)) in (gx * gx + gy * gy)%Z.
Definition rects_meet (a b : rect) : bool :=
  (Z.abs (fst (r_c a) - fst (r_c b)) <=? fst (r_h a) + fst (r_h b))%Z &&
  (Z.abs (snd (r_c a) - snd (r_c b)) <=? snd (r_h a) + snd (r_h b))%Z.

Definition PT : Types := {|
  tState := pt; tAction := unit; tTraj := unit; tBM := bstatus; tEM := estatus; tDM := unit;
  tGD := bool; tShape := pt; tBox := rect; tMapBox := rect; tPoint := pt; tPoly := rect;
  tSensed := unit; tOS := unit; tEv := unit; tObj := N |}.

Definition PO : Ops PT := mkOps PT
  (fun b => b) (fun b _ _ => b) (fun _ => tt) (fun _ => tt) (fun b => b)
  (fun e => e) (fun e _ _ _ => e) (fun _ => (0, 0)%Z) (fun e => e)
  (fun d => d) (fun g => g) (fun o => o) (fun o => o)
  (fun (o : unit) w id => (o, mkObserved w id)) (fun _ => tt)
  (fun (h : pt) (c : pt) => mkRect c h) (fun b mb => rects_meet b mb)
  (fun l p k => firstn k (ksort (fun e => dist2 (fst e) p) l))
  rects_meet
  (fun (h : pt) (c : pt) pg => rects_meet (mkRect c h) pg).

Lemma PO_knn : knn_contract PO (fun b p => inject_Z (dist2 b p)).
Proof.
  intros l p k. exists (skipn k (ksort (fun e => dist2 (fst e) p) l)).
  cbn [knn PO]. split; [rewrite firstn_skipn; symmetry; apply ksort_perm|]. split.
  - rewrite firstn_length. f_equal. apply Permutation_length, ksort_perm.
  - intros e e' He He'. rewrite <- Zle_Qle. exact (ksort_split _ _ _ _ _ He He').
Qed.

Definition p_hit (h1 c1 h2 c2 : pt) : bool := rects_meet (mkRect c1 h1) (mkRect c2 h2).
Definition p_agent (id : N) (c h : pt) (st : bstatus) (g : option bool) : agent PT :=
  new_agent PO id h c st tt E_VALID g 10 0.
Definition p_world (ags : kmap (agent PT)) : world PT :=
  @mkWorld PT 0 ags [] [] tt
    (map (fun p : N * agent PT => (mkRect (match current_state (snd p) with Some s => s | None => (0,0)%Z end)
                           (ag_shape (snd p)), fst p)) ags)
    None false 0 4%N.

(* a long ego vehicle, three small ones beside it, and one that overlaps its front end *)
Definition long_ego : world PT := p_world
  [(1%N, p_agent 1%N (0, 0)%Z (10, 1)%Z VALID (Some true));
   (2%N, p_agent 2%N (0, 3)%Z (1, 1)%Z VALID (Some true));
   (3%N, p_agent 3%N (0, -3)%Z (1, 1)%Z VALID (Some false));
   (4%N, p_agent 4%N (1, 4)%Z (1, 1)%Z VALID (Some true));
   (5%N, p_agent 5%N (9, 0)%Z (1, 1)%Z VALID (Some true))].
(* the same without the vehicles beside the ego *)
Definition short_list : world PT := p_world
  [(1%N, p_agent 1%N (0, 0)%Z (10, 1)%Z VALID (Some true));
   (3%N, p_agent 3%N (0, -3)%Z (1, 1)%Z VALID (Some false));
   (5%N, p_agent 5%N (9, 0)%Z (1, 1)%Z VALID (Some true))].

Lemma long_ego_ok : world_ok long_ego.
Proof.
  split; [|split].
  - cbn. repeat constructor.
  - intros k a H. apply m_find_In in H. cbn in H.
    repeat (destruct H as [H|H]; [inversion H; subst; (split; [reflexivity|]);
      unfold agent_ok, kept; cbn; split; (discriminate || lia)|]). destruct H.
  - intros H; discriminate.
Qed.
Lemma short_list_ok : world_ok short_list.
Proof.
  split; [|split].
  - cbn. repeat constructor.
  - intros k a H. apply m_find_In in H. cbn in H.
    repeat (destruct H as [H|H]; [inversion H; subst; (split; [reflexivity|]);
      unfold agent_ok, kept; cbn; split; (discriminate || lia)|]). destruct H.
  - intros H; discriminate.
Qed.
Lemma long_ego_fresh : index_fresh PO long_ego. Proof. reflexivity. Qed.
Lemma short_list_fresh : index_fresh PO short_list. Proof. reflexivity. Qed.
