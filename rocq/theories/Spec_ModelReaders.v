(** What the parameters of a configuration mean for the models made from it. *)

From Coq Require Import String Ascii List Arith Lia Bool QArith ZArith.
Import ListNotations.
From Verif Require Import Model_BenchRun Model_Params Model_PyParams Spec_PyParams.
Local Open Scope string_scope.
Local Open Scope nat_scope.
Local Open Scope list_scope.

(** What the configuration at [l] says about the parameter with this path: the value stored
    there (a plain value met earlier on the path hides it), the default [d] if there is
    none; None if the path names a group. *)
Fixpoint says (h : heap) (l : loc) (path : list string) (d : pv) : option pv :=
  match path with
  | [] => None
  | k :: r => match entry h l k with
              | Some (PServer c) => says h c r d
              | Some v => Some v
              | None => Some d
              end
  end.

(** Servers form a tree: no server is reached by two different paths. *)
Definition tree (h : heap) (l : loc) : Prop :=
  forall p q c, walk h l p = Some c -> walk h l q = Some c -> p = q.

(** [p] is an initial part of [q]. *)
Definition initial (p q : list string) : Prop := exists r, q = p ++ r.

(** No parameter read by a constructor lies below another one, and a parameter read twice
    has the same default. *)
Definition consistent (rs : list (string * json)) : Prop :=
  forall a b, In a rs -> In b rs -> initial (hierarchy_of (fst a)) (hierarchy_of (fst b)) -> a = b.

(** A class name: no "::", and its constructor's reads are consistent. *)
Definition good_classes (classes : string -> option (list (string * json))) : Prop :=
  forall t rs, classes t = Some rs -> t <> "" /\ has_colon t = false /\ consistent rs.
