(* Specification vocabulary on roads: which roads the map connects. *)
From Coq Require Import List NArith ZArith Bool.
From Verif Require Import Model_Map Model_Roadgraph Spec_Roadgraph.
Import ListNotations.

Section Spec2.
  Context {P : Type}.
  (* some lane of r and some lane of r' are declared to be connected (in either order) *)
  Definition road_linked (m : xmap P) (r r' : N) : Prop :=
    exists a b, lane_of m r a /\ lane_of m r' b /\ (linked m a b \/ linked m b a).
  (* every road has exactly one lane section, with a reference line and no gaps *)
  Definition simple_roads (m : xmap P) : Prop :=
    forall k r, In (k, r) (m_roads m) -> exists s, r_sections r = [s] /\ has_plan_view s /\ contiguous s.
End Spec2.
