(* std::map<unsigned, V> as an association list kept sorted by key.
   Used for World::agents_, World::objects_ (bark/world/world.hpp:46-47). Iteration order of a
   std::map is increasing key order, which is list order here. *)
From Coq Require Import List NArith Bool Sorted.
Import ListNotations.
Local Open Scope N_scope.

Section Map.
  Context {V : Type}.
  Definition kmap := list (N * V).

  (* std::map::find / GetAgent's lookup (bark/world/world.hpp:124-131). *)
  Fixpoint m_find (k : N) (m : kmap) : option V :=
    match m with
    | [] => None
    | (k', v) :: r => if k =? k' then Some v else m_find k r
    end.

  (* operator[](k) = v : overwrite or insert at the sorted place (bark/world/world.cpp:131-133). *)
  Fixpoint m_insert (k : N) (v : V) (m : kmap) : kmap :=
    match m with
    | [] => [(k, v)]
    | (k', v') :: r =>
        if k <? k' then (k, v) :: m
        else if k =? k' then (k, v) :: r
        else (k', v') :: m_insert k v r
    end.

  (* std::map::erase(key) (bark/world/world.cpp:194, 320). *)
  Definition m_erase (k : N) (m : kmap) : kmap :=
    filter (fun p => negb (fst p =? k)) m.

  (* representation invariant of std::map: strictly increasing keys. *)
  Definition m_sorted (m : kmap) : Prop :=
    StronglySorted (fun p q => fst p < fst q) m.
End Map.
Arguments kmap : clear implicits.
