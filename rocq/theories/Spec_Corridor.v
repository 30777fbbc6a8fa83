(* Specification vocabulary for road and lane corridors: what the map and the list of roads say, without
   reference to the corridor tables. A lane is named by (road id, lane id). *)
From Coq Require Import List NArith ZArith QArith Bool.
From Verif Require Import Model_Map Model_Roadgraph Spec_Roadgraph Spec_RoadSearch Model_Corridor.
Import ListNotations.

(* r' comes directly after r in the list *)
Definition follows (ids : list N) (r r' : N) : Prop := exists pre post, ids = pre ++ r :: r' :: post.

(* the list without immediate repetitions *)
Fixpoint compress (ids : list N) : list N :=
  match ids with
  | a :: ((b :: _) as t) => if (a =? b)%N then compress t else a :: compress t
  | l => l
  end.

Section SpecC.
  Context {P : Type}.
  Implicit Types (m : xmap P) (ids : list N).

  (* the lane of the map named by (road, lane id) *)
  Definition names m (p : N * N) (l : xlane P) : Prop := lane_of m (fst p) l /\ l_id l = snd p.
  (* connected by the map, in either orientation *)
  Definition joined m (a b : xlane P) : Prop := linked m a b \/ linked m b a.
  (* q continues p along the list of roads *)
  Definition onward m ids (p q : N * N) : Prop :=
    exists a b, names m p a /\ names m q b /\ follows ids (fst p) (fst q) /\ joined m a b.
  (* a lane of the listed roads that traffic may use *)
  Definition usable m ids (p : N * N) : Prop :=
    In (fst p) ids /\ exists l, names m p l /\ l_type l = DRIVING /\ l_pos l <> 0%Z.

  (* what the line operations guarantee on non-empty lines *)
  Definition lines_ok (L : line_ops P) : Prop :=
    (forall a b, a <> [] -> b <> [] -> exists c, lo_concat L a b = Some c /\ c <> []) /\
    (forall a b, a <> [] -> b <> [] -> exists c, lo_center L a b = Some c /\ c <> []) /\
    (forall a, a <> [] -> lo_simplify L a <> []).

  (* every road has sections without gaps up to a reference line, and no empty line *)
  Definition drawable m ids : Prop :=
    forall r s, In r ids -> section_of m r s ->
      contiguous s /\ forall l, in_section l s -> l_line l <> [].
End SpecC.

(* the roads are listed by increasing id, apart from the first one *)
Definition ordered (ids : list N) : Prop :=
  forall r r', follows ids r r' -> r <> r' -> hd_error ids = Some r \/ (r < r')%N.
(* no road is visited twice, apart from immediate repetitions, and none is connected with itself *)
Definition simple_route {P : Type} (m : xmap P) (ids : list N) : Prop :=
  NoDup (compress ids) /\
  forall r a b, In r ids -> lane_of m r a -> lane_of m r b -> ~ linked m a b.
(* the reference lines of the map are not connected *)
Definition reference_unlinked {P : Type} (m : xmap P) : Prop :=
  forall a b, linked m a b -> l_pos a <> 0%Z /\ l_pos b <> 0%Z.
(* distinct corridor ids have distinct keys *)
Definition injective_on (calls : list (list N * dir)) (h : dir -> list N -> N) : Prop :=
  forall a b, In a calls -> In b calls -> h (snd a) (fst a) = h (snd b) (fst b) -> a = b.

(* lines joined one after the other *)
Definition join_lines {P : Type} (L : line_ops P) (ls : list (list P)) : option (list P) :=
  match ls with [] => None | x :: r => ofold (lo_concat L) r x end.

(* a history of GenerateRoadCorridor calls, starting from the given store *)
Fixpoint generate_all {P : Type} (L : line_ops P) h fuel (m : xmap P) g (calls : list (list N * dir)) (st : store (P:=P))
  : Model_Intersection.outcome (store (P:=P)) :=
  match calls with
  | [] => Model_Intersection.Done st
  | (ids, d) :: r =>
      match generate_corridor L h fuel m g ids d st with
      | Model_Intersection.Done st' => generate_all L h fuel m g r st'
      | x => x
      end
  end.
