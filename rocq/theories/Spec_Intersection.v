(** What a conflict at an intersection is (C35). *)
From Coq Require Import List NArith ZArith QArith Bool Reals Qreals.
From Verif Require Import Model_Map Model_World Spec_World Model_Prediction Model_Angle Model_Intersection.
Import ListNotations.

(** The points of the prediction grid: 0, inc, inc + inc, ... *)
Fixpoint grid (inc : Q) (i : nat) : Q := match i with O => 0 | S j => grid inc j + inc end.

Section Spec.
  Context {T : Types} (O : Ops T).
  Variables Road Corridor : Type.
  Variable road_of : AgentId -> option Road.
  Variables nearest_lane lane_at : Road -> tPoint T -> option Corridor.
  Variable position : tState T -> tPoint T.
  Variable theta : tState T -> R.
  Variable arc : Corridor -> tPoint T -> R.
  Variable cor_poly : Corridor -> tPoly T.
  Variables (pi : R) (fl : R -> R).

  (** [pw] is the observed world as predicted for time [t]: everybody live drives on with constant acceleration, the
      others do not start. *)
  Definition predicted_at (ns ca : tBM T) (ow : observed T) (t : Q) (pw : observed T) : Prop :=
    exists sw, apply_settings O ns (mkSettings (Some ca) (Some ca) None []) (clone_observed O ow) = Some sw /\ predict O sw t = Some pw.

  (** In the predicted world [pw] agent [id] is in conflict with the ego on the corridor [c]: it is another live agent
      touching [c], on a lane corridor of its own road different from the ego's; its heading differs from the ego's by
      more than the angle limit; it is ahead of the ego by less than the braking distance, measured on the corridor the
      ego is on. *)
  Definition conflict (p : inter_params) (c : Corridor) (pw : observed T) (id : AgentId) : Prop :=
    exists e es a s re ra ce ca,
      get_agent (ow_world pw) (ow_ego pw) = Some e /\ current_state e = Some es /\
      get_agent (ow_world pw) id = Some a /\ current_state a = Some s /\
      id <> ow_ego pw /\ live_at O (ow_world pw) a /\ collide O (ag_shape a) s (cor_poly c) = true /\
      road_of (ow_ego pw) = Some re /\ nearest_lane re (position es) = Some ce /\
      road_of id = Some ra /\ lane_at ra (position s) = Some ca /\ ca <> ce /\
      (ip_angle p < SignedAngleDiff pi fl (theta es) (theta s))%R /\
      (arc ce (position es) < arc ce (position s) < arc ce (position es) + ip_braking p)%R.
End Spec.
