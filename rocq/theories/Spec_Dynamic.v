(** Specification vocabulary for vehicle dynamics (C28): differential equations. *)
From Coq Require Import Reals.
Local Open Scope R_scope.

(** Motion of a bicycle with wheel base [l], constant steering angle [delta] and acceleration [a] during
    [0, T]. *)
Definition bicycle_motion (l delta a T : R) (X Y TH V : R -> R) : Prop :=
  forall t, 0 <= t <= T ->
    derivable_pt_lim X t (V t * cos (TH t)) /\ derivable_pt_lim Y t (V t * sin (TH t)) /\
    derivable_pt_lim TH t (V t * tan delta / l) /\ derivable_pt_lim V t a.

(** Point mass with constant jerk [j]. *)
Definition jerk_motion (j : R) (P V A : R -> R) : Prop :=
  forall t, derivable_pt_lim P t (V t) /\ derivable_pt_lim V t (A t) /\ derivable_pt_lim A t j.
