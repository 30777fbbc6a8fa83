(* Vocabulary for the point queries of a map interface, in terms of the map alone. *)
From Coq Require Import List NArith ZArith QArith Bool Arith Permutation.
From Verif Require Import Model_Map Model_Roadgraph Spec_Roadgraph Model_MapQuery.
Import ListNotations.
Local Open Scope Q_scope.

(* q lies on the straight line from a to b *)
Definition on_segment (a b q : qp) : Prop :=
  exists t, 0 <= t /\ t <= 1 /\ fst q == fst a + t * (fst b - fst a) /\ snd q == snd a + t * (snd b - snd a).

(* the straight line from the first to the last point of the lane's border *)
Definition chord (l : xlane qp) (a b : qp) : Prop :=
  (exists r, l_line l = a :: r) /\ (exists r, l_line l = r ++ [b]).

(* the chord of l is at most as far from p as the chord of l' *)
Definition as_near (p : qp) (l l' : xlane qp) : Prop :=
  forall a b a' b' q', chord l a b -> chord l' a' b' -> on_segment a' b' q' ->
  exists q, on_segment a b q /\ d2 p q <= d2 p q'.

(* a lane of the map other than a reference line, of type driving if asked for *)
Definition eligible (m : xmap qp) (driving_only : bool) (l : xlane qp) : Prop :=
  (exists r, lane_of m r l) /\ l_pos l <> 0%Z /\ (driving_only = true -> l_type l = DRIVING).

(* the closed ring between the border of l and the border of its inner neighbour *)
Definition ring_of (m : xmap qp) (l : xlane qp) (ring : list qp) : Prop :=
  exists r s i q rest, section_of m r s /\ in_section l s /\ in_section i s /\
    l_pos l <> 0%Z /\ l_pos i = inward (l_pos l) /\ l_line i = q :: rest /\
    ring = l_line i ++ rev (l_line l) ++ [q].
Definition holds (covers : list qp -> qp -> bool) m l p : Prop :=
  exists ring, ring_of m l ring /\ covers ring p = true.

(* the R-tree's k-nearest query: k values that pass the filter (all of them if there are fewer), none of them
   farther away than one left out. The order of the result is not specified. *)
Definition nearest_ok (nearest : list entry -> (xlane qp -> bool) -> qp -> nat -> list entry) : Prop :=
  forall es f p n, (0 < n)%nat ->
  exists rest, Permutation (filter (fun e => f (snd e)) es) (nearest es f p n ++ rest) /\
    length (nearest es f p n) = Nat.min n (length (filter (fun e => f (snd e)) es)) /\
    forall x y, In x (nearest es f p n) -> In y rest -> entry_d2 p x <= entry_d2 p y.

(* b is the smallest box around the points *)
Definition is_box (pts : list qp) (b : qp * qp) : Prop :=
  (forall q, In q pts -> fst (fst b) <= fst q <= fst (snd b) /\ snd (fst b) <= snd q <= snd (snd b)) /\
  (exists q, In q pts /\ fst q == fst (fst b)) /\ (exists q, In q pts /\ fst q == fst (snd b)) /\
  (exists q, In q pts /\ snd q == snd (fst b)) /\ (exists q, In q pts /\ snd q == snd (snd b)).
