(* Contract of boost::dijkstra_shortest_paths and the meaning of "path". *)
From Coq Require Import List NArith ZArith Bool Arith.
From Verif Require Import Model_Map Model_Roadgraph Model_RoadSearch.
Import ListNotations.

(* a route over weighted edges E, listed node by node, with its total weight *)
Inductive route {A : Type} (E : A -> A -> nat -> Prop) : A -> A -> list A -> nat -> Prop :=
| route_nil x : route E x x [x] 0
| route_cons x y z l w n : E x y w -> route E y z l n -> route E x z (x :: l) (w + n).

Section Contract.
  Context {P : Type}.

  (* what the predecessor vector of a shortest-path search from s means (Boost documentation of
     dijkstra_shortest_paths): with d the distances, the predecessor of a reached vertex other than s lies
     on a shortest path, and p[v] = v for s and for every unreached vertex. *)
  Definition sp_contract (verts : list nat) (edges : list (nat * nat * nat)) (s : nat) (p : nat -> nat) : Prop :=
    exists d : nat -> option nat,
      d s = Some 0 /\ p s = s /\
      (forall v, In v verts -> d v = None -> p v = v) /\
      (forall v n, d v = Some n -> v <> s ->
         exists w n', In (p v, v, w) edges /\ d (p v) = Some n' /\ n = n' + w) /\
      (forall u v w n, In (u, v, w) edges -> d u = Some n -> exists n', d v = Some n' /\ n' <= n + w).

  Definition dijkstra_ok (D : dijkstra P) : Prop :=
    forall g f s, In s (fverts g f) -> sp_contract (fverts g f) (fedges g f) s (D g f s).

  (* the searched graph in terms of lane ids *)
  Definition lane_edge (g : graph P) (f : filt P) (x y : N) (w : nat) : Prop :=
    exists e, In e (g_e g) /\ f_edge f g e = true /\ fvert g f (e_src e) = true /\ fvert g f (e_dst e) = true /\
      x = vid g (e_src e) /\ y = vid g (e_dst e) /\ w = weight (e_type e).
End Contract.

(* consecutive elements are related *)
Fixpoint chain {A : Type} (R : A -> A -> Prop) (l : list A) : Prop :=
  match l with
  | x :: ((y :: _) as r) => R x y /\ chain R r
  | _ => True
  end.
Definition starts {A : Type} (x : A) (l : list A) : Prop := exists r, l = x :: r.
Definition ends {A : Type} (x : A) (l : list A) : Prop := exists r, l = r ++ [x].
