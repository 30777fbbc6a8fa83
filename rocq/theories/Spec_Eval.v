(** Specification vocabulary for C31. *)
From Coq Require Import List NArith ZArith QArith Bool.
From Verif Require Import Model_Map Model_World Spec_World.
Import ListNotations.

(** [n] is the number of ids that satisfy [P] *)
Definition how_many (P : AgentId -> Prop) (n : nat) : Prop :=
  exists l, NoDup l /\ length l = n /\ forall i, In i l <-> P i.

(** arithmetic mean of a non-empty list *)
Definition is_mean (l : list Q) (m : Q) : Prop :=
  l <> [] /\ m * inject_Z (Z.of_nat (length l)) == sumQ l.

(** the measurements that were actually taken *)
Definition taken (ms : list (option Q)) : list Q :=
  flat_map (fun o => match o with Some x => [x] | None => [] end) ms.

Section Spec.
  Context {T : Types} (O : Ops T).
  Variable hit : tShape T -> tState T -> tShape T -> tState T -> bool.

  (** agents [i] and [j] of the world are different, both live, and their footprints collide *)
  Definition colliding_pair (w : world T) (i j : AgentId) : Prop :=
    exists a b sa sb, i <> j /\ get_agent w i = Some a /\ get_agent w j = Some b /\
      live_at O w a /\ live_at O w b /\
      current_state a = Some sa /\ current_state b = Some sb /\
      hit (ag_shape a) sa (ag_shape b) sb = true.

  (** agent [ego] collides with another live agent *)
  Definition ego_collides (w : world T) (ego : AgentId) : Prop :=
    exists j a b sa sb, ego <> j /\ get_agent w ego = Some a /\ get_agent w j = Some b /\
      live_at O w b /\ current_state a = Some sa /\ current_state b = Some sb /\
      hit (ag_shape a) sa (ag_shape b) sb = true.

  (** the observer shows the world as it is (ObserverModelNone, observer_model_none.hpp:45-52) *)
  Definition transparent_observer : Prop :=
    forall o w id, observe O o w id = (o, mkObserved w id).
End Spec.
