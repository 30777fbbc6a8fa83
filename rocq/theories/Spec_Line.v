(** Polylines without stored arc lengths (specification for C23, C24, C25, C48). *)
From Coq Require Import Reals List.
From Verif Require Import Base_Geom.
Import ListNotations.
Local Open Scope R_scope.

(** Sum of the segment lengths. *)
Fixpoint polyline_length (l : list pt) : R :=
  match l with
  | p :: (q :: _) as r => dist p q + polyline_length r
  | _ => 0
  end.

(** [P] lies on the segment between the vertices [i] and [i+1], at fraction [t]. *)
Definition on_segment (l : list pt) (i : nat) (t : R) (P : pt) : Prop :=
  exists p q, nth_error l i = Some p /\ nth_error l (S i) = Some q /\ 0 <= t <= 1 /\ P = lerp t p q.
Definition on_polyline (l : list pt) (P : pt) : Prop := exists i t, on_segment l i t P.

(** The distance travelled along the polyline from its first vertex to [P] is [s]. *)
Definition at_arclength (l : list pt) (s : R) (P : pt) : Prop :=
  exists i p q t, nth_error l i = Some p /\ nth_error l (S i) = Some q /\ 0 <= t <= 1 /\ P = lerp t p q /\
    s = polyline_length (firstn (S i) l) + dist p P.

(** The stored arc lengths are those of the vertices. *)
Definition arc_lengths_of (l : list pt) (ss : list R) : Prop :=
  length ss = length l /\
  forall i, (i < length l)%nat -> nth_error ss i = Some (polyline_length (firstn (S i) l)).

(** The parameter interval is the whole line. *)
Definition clamp (lo hi x : R) : R := Rmax lo (Rmin hi x).
