(** Tasks: visit a region, or do several tasks one after the other. *)
From Coq Require Import List ZArith Bool.
From Verif Require Import Model_Goal.
Import ListNotations.

Inductive task (O : Type) := Visit (region : O -> bool) | InOrder (ts : list (task O)).
Arguments Visit {O}. Arguments InOrder {O}.

(** The object constructed for a task (goal_definition_sequential.hpp:33-36). *)
Fixpoint fresh {O} (t : task O) : goal O :=
  match t with
  | Visit p => GAtom p
  | InOrder ts => GSeq (map fresh ts) (-1)
  end.

(** Sequential goals have at least one sub-goal. *)
Fixpoint nonempty {O} (t : task O) : Prop :=
  match t with
  | Visit _ => True
  | InOrder ts => ts <> [] /\ (fix all l := match l with [] => True | u :: r => nonempty u /\ all r end) ts
  end.

(** The task has been accomplished during history [h]: a region was visited at
    some moment; a list of tasks was accomplished in consecutive parts of [h]. *)
Inductive accomplished {O} : task O -> list O -> Prop :=
| acc_visit p h x : In x h -> p x = true -> accomplished (Visit p) h
| acc_seq ts h : accomplished_all ts h -> accomplished (InOrder ts) h
with accomplished_all {O} : list (task O) -> list O -> Prop :=
| acc_nil h : accomplished_all [] h
| acc_cons t ts h1 h2 : accomplished t h1 -> accomplished_all ts h2 ->
                        accomplished_all (t :: ts) (h1 ++ h2).
