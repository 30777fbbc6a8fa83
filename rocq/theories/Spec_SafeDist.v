(** Continuous-time motion of braking vehicles (specification for C18, C19, C47). *)
From Coq Require Import Reals.
Local Open Scope R_scope.

(** Distance travelled [t] seconds after starting to brake with the (negative) acceleration [a] from
    speed [v] >= 0: constant deceleration until standstill at time -v/a, then at rest. *)
Definition braking (a v t : R) : R :=
  if Rle_dec t (- v / a) then v * t + a * t ^ 2 / 2 else - v ^ 2 / (2 * a).

(** Driving on with constant speed for the reaction time, then braking. *)
Definition react_and_brake (delta a v t : R) : R :=
  if Rle_dec t delta then v * t else v * delta + braking a v (t - delta).

(** The rear vehicle, [dist] behind the front one, never reaches it. *)
Definition never_touch (v_f v_r dist a_r a_f delta : R) : Prop :=
  forall t, 0 <= t -> react_and_brake delta a_r v_r t < dist + braking a_f v_f t.

(** The rear vehicle, although braking harder, is still faster when the reaction time is over, and comes
    to a standstill before the (still moving) front vehicle does: the two would be closest in motion. *)
Definition closest_in_motion (v_f v_r a_r a_f delta : R) : Prop :=
  delta <= - v_f / a_f /\ a_r < a_f /\ v_f + a_f * delta < v_r /\ - v_r / a_r < - (v_f + a_f * delta) / a_f.

(** Lateral motion with signed speed [v]: keep it for the reaction time, then reduce its magnitude with
    rate [a] > 0 down to zero. *)
Definition lateral_motion (delta a v t : R) : R :=
  if Rle_dec 0 v then react_and_brake delta (- a) v t else - react_and_brake delta (- a) (- v) t.
