(* A small concrete instance of the simulation core, used to show that the hypotheses of the general
   theorems are met by non-trivial worlds and as witnesses for refutations. Vehicles are points on a
   line; a behaviour drives with constant speed (its target is the ego position seen in the observed
   world plus its speed); the execution model jumps to the target. *)
From Coq Require Import List NArith ZArith QArith Bool Permutation Sorted Lia.
From Verif Require Import Model_Map Model_World Spec_World Proof_Map.
Import ListNotations.

Record toy_bm := mkBM { tb_status : bstatus; tb_speed : Z; tb_target : Z }.

Definition TT : Types := {|
  tState := Z; tAction := Z; tTraj := Z; tBM := toy_bm; tEM := estatus * Z; tDM := unit; tGD := unit;
  tShape := unit; tBox := Z; tMapBox := Z * Z; tPoint := Z; tPoly := Z * Z; tSensed := unit;
  tOS := unit; tEv := unit; tObj := N |}.

Fixpoint ins (p : Z) (e : Z * N) (l : list (Z * N)) : list (Z * N) :=
  match l with
  | [] => [e]
  | e' :: r => if (Z.abs (fst e - p) <=? Z.abs (fst e' - p))%Z then e :: l else e' :: ins p e r
  end.
Definition isort (p : Z) (l : list (Z * N)) : list (Z * N) := fold_right (ins p) [] l.

Definition toy_plan (b : toy_bm) (dt : Q) (ow : observed TT) : toy_bm :=
  match get_agent (ow_world ow) (ow_ego ow) with
  | Some a => match current_state a with
              | Some x => mkBM (tb_status b) (tb_speed b) (x + tb_speed b)%Z
              | None => b end
  | None => b
  end.

Definition TO : Ops TT := mkOps TT
  tb_status toy_plan tb_target tb_speed (fun b => b)
  fst (fun (_ : estatus * Z) (_ : Q) (tr : Z) (_ : unit) => (E_VALID, tr)) snd (fun e => e)
  (fun d => d) (fun g => g) (fun o => o) (fun o => o)
  (fun (o : unit) w id => (o, mkObserved w id)) (fun _ => tt)
  (fun (_ : unit) (s : Z) => s) (fun b mb => (fst mb <? b)%Z && (b <? snd mb)%Z)
  (fun l p k => firstn k (isort p l))
  (fun b pg => (fst pg <=? b)%Z && (b <=? snd pg)%Z)
  (fun (_ : unit) (s : Z) pg => (fst pg <=? s)%Z && (s <=? snd pg)%Z).

Definition toy_agent (id : N) (x speed : Z) (st : bstatus) (maxh : nat) (first : Q) : agent TT :=
  new_agent TO id tt x (mkBM st speed 0) tt (E_VALID, 0%Z) None maxh first.

Definition toy_world (ags : kmap (agent TT)) (rm : bool) : world TT :=
  @mkWorld TT 0 ags [] [] tt [] (Some (-10, 10)%Z) rm 0 4%N.

(* three agents: one running, one starting later, one expired *)
Definition toy3 : world TT :=
  toy_world [(1, toy_agent 1 0 3 VALID 2 0); (2, toy_agent 2 5 1 VALID 50 (3#1));
             (7, toy_agent 7 (-4) 1 EXPIRED 50 0)]%N true.

Lemma ins_perm p e l : Permutation (ins p e l) (e :: l).
Proof.
  induction l as [|e' r IH]; cbn; [reflexivity|]. destruct (_ <=? _)%Z; [reflexivity|].
  rewrite IH. apply perm_swap.
Qed.
Lemma isort_perm p l : Permutation (isort p l) l.
Proof. induction l as [|e r IH]; cbn; [reflexivity|]. rewrite ins_perm. now constructor. Qed.

Definition nearer (p : Z) (a b : Z * N) : Prop := (Z.abs (fst a - p) <= Z.abs (fst b - p))%Z.
Lemma ins_sorted p e l : StronglySorted (nearer p) l -> StronglySorted (nearer p) (ins p e l).
Proof.
  induction l as [|e' r IH]; cbn; intros H; [repeat constructor|].
  inversion H as [|? ? Hs HF]; subst. destruct (Z.leb_spec (Z.abs (fst e - p)) (Z.abs (fst e' - p))) as [L|L].
  - constructor; [exact H|]. constructor; [exact L|]. rewrite Forall_forall in *.
    intros x Hx. specialize (HF x Hx). unfold nearer in *; lia.
  - constructor; [auto|]. apply Forall_forall. intros x Hx.
    apply (Permutation_in _ (ins_perm p e r)) in Hx as [<-|Hx]; [unfold nearer; lia|].
    rewrite Forall_forall in HF. auto.
Qed.
Lemma isort_sorted p l : StronglySorted (nearer p) (isort p l).
Proof. induction l as [|e r IH]; cbn; [constructor|]. apply ins_sorted, IH. Qed.

Lemma toy_knn : knn_contract TO (fun b p => inject_Z (Z.abs (b - p))).
Proof.
  intros l p k. cbn [knn TO]. exists (skipn k (isort p l)).
  split; [rewrite firstn_skipn; symmetry; apply isort_perm|]. split.
  - rewrite firstn_length. f_equal. apply Permutation_length, isort_perm.
  - intros e e' He He'. rewrite <- Zle_Qle.
    pose proof (isort_sorted p l) as Hs. change (tPoint TT) with Z in *.
    revert k He He'. induction (isort p l) as [|x r IH]; intros k He He'.
    + rewrite firstn_nil in He; destruct He.
    + destruct k as [|k]; [destruct He|]. cbn in He, He'.
      inversion Hs as [|? ? Hs' HF]; subst. destruct He as [<-|He]; [|eauto].
      rewrite Forall_forall in HF. apply HF.
      rewrite <- (firstn_skipn k r). apply in_or_app; now right.
Qed.

Lemma toy_box : box_contract TO.
Proof. intros sh s pg H. exact H. Qed.

Lemma toy_stateless : stateless_observer TO.
Proof. intros o w id. reflexivity. Qed.

Lemma toy3_ok : world_ok toy3.
Proof.
  split; [|split].
  - cbn. repeat constructor.
  - intros k a H. apply m_find_In in H. cbn in H.
    destruct H as [H|[H|[H|[]]]]; inversion H; subst; (split; [reflexivity|]);
      unfold agent_ok, kept; cbn [toy_agent new_agent ag_hist ag_max length]; split; (discriminate || lia).
  - intros _; cbn; discriminate.
Qed.
