(* Vocabulary for isolation of cloned worlds. *)
From Coq Require Import List NArith QArith Bool Arith.
From Verif Require Import Model_Map Model_Heap.
Import ListNotations.

Section Spec.
  Context {D H : Type}.
  Notation heap := (heap D H).

  Definition is_model (h : heap) (l : loc) : Prop := exists d subs, hget D H h l = Some (CModel D H d subs).

  (* all pointers of the world lead to objects of the right kind *)
  Definition hwf (h : heap) (w : hworld) : Prop :=
    (forall id l, In (id, l) (hw_agents w) ->
       exists a, hget D H h l = Some (CAgent D H a) /\ ha_id H a = id /\
         is_model h (ha_bm H a) /\ is_model h (ha_dm H a) /\ is_model h (ha_em H a) /\
         (forall g, ha_goal H a = Some g -> is_model h g)) /\
    (forall id l, In (id, l) (hw_objects w) -> is_model h l) /\
    (forall l, In l (hw_evals w) -> is_model h l) /\ is_model h (hw_observer w).

  (* an object that a clone shares with its original: the observer, an evaluator, an inner model
     that some model object points to, or a behaviour model handed over by the caller *)
  Definition handed_over (ops : list (hop D H)) (l : loc) : Prop := exists id, In (HSetBehavior D H id l) ops.
  Definition inner (h : heap) (l : loc) : Prop :=
    exists m d subs, hget D H h m = Some (CModel D H d subs) /\ In l subs.
  Definition shared (h : heap) (w : hworld) (ops : list (hop D H)) (l : loc) : Prop :=
    l = hw_observer w \/ In l (hw_evals w) \/ inner h l \/ handed_over ops l.

  (* everything a client sees of an agent *)
  Definition agent_view (h : heap) (w : hworld) (id : N) : option (hagent H * list (option D)) :=
    match m_find id (hw_agents w) with
    | None => None
    | Some l => match hget D H h l with
                | Some (CAgent _ _ a) =>
                    Some (a, [payload D H h (ha_bm H a); payload D H h (ha_dm H a); payload D H h (ha_em H a);
                              match ha_goal H a with None => None | Some g => payload D H h g end])
                | _ => None
                end
    end.
End Spec.
