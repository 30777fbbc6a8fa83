(** What a user of ConfigWithEase sees. *)

From Coq Require Import List Arith Lia Bool QArith ZArith.
Import ListNotations.
From Verif Require Import Model_ScenGen Model_Readers Model_Ease.
Local Open Scope nat_scope.
Local Open Scope list_scope.

Definition draws (u : nat -> Q) : Prop := forall k, (0 <= u k /\ u k < 1)%Q.
Definition picks (rnd : nat -> nat -> nat) : Prop := forall k n, 0 < n -> rnd k n < n.

(** Positions one after the other with gaps between [lo] and [hi], up to [top] and as far
    as possible: one more gap would lead beyond [top]. *)
Fixpoint spaced (lo hi top : Q) (l : list Q) : Prop :=
  match l with
  | [] => True
  | s :: r => (s <= top)%Q /\
      match r with
      | [] => (top < s + hi)%Q
      | s' :: _ => (lo <= s' - s)%Q /\ (s' - s <= hi)%Q
      end /\ spaced lo hi top r
  end.
