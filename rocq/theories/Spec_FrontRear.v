(* Vocabulary for the front/rear query. *)
From Coq Require Import List NArith ZArith QArith Qabs Bool.
From Verif Require Import Model_Map Model_World Spec_World Model_FrontRear.
Import ListNotations.

Section FR.
  Context {T : Types} (O : Ops T) (Corridor : Type).
  Variable rel : Corridor -> tState T -> tShape T -> tState T -> tShape T -> frel.

  (* [a] is a candidate with relation [d] to an ego in state [egos] with shape [egosh]: it is another
     agent, live, and laterally and angularly inside the thresholds *)
  Definition candidate (w : world T) (ego : AgentId) egos egosh (c : Corridor) (latthr angthr : Q)
             (a : agent T) (d : frel) : Prop :=
    ag_id a <> ego /\ live_at O w a /\
    (exists s, current_state a = Some s /\ d = rel c egos egosh s (ag_shape a)) /\
    Qabs (if r_lat_zeroed d then 0 else r_lat d) <= latthr /\ Qabs (r_angle d) <= angthr.


  (* answer [b] (agent and its difference) to "the one with the smallest longitudinal difference
     among those members with [side]" ; distances of DBL_MAX and above count as no agent *)
  Definition least_lon (member : agent T -> frel -> Prop) (b : pair_opt (T:=T)) : Prop :=
    match b with
    | Some (a, d) => member a d /\ r_lon d < dbl_max /\ forall a' d', member a' d' -> r_lon d <= r_lon d'
    | None => forall a' d', member a' d' -> dbl_max <= r_lon d'
    end.

  (* the same, and among equally distant members the one with the smallest id *)
  Definition least_lon_id (member : agent T -> frel -> Prop) (b : pair_opt (T:=T)) : Prop :=
    least_lon member b /\
    forall a d a' d', b = Some (a, d) -> member a' d' -> r_lon d' == r_lon d -> (ag_id a <= ag_id a')%N.
End FR.
