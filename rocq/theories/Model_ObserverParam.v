(** Model of bark/models/observer/observer_model_parametric.{hpp,cpp} and observer_model.hpp. [None]: std::out_of_range, a null agent,
    or an access out of range of the sampled vector (BARK_EXPECT_TRUE, observer_model_parametric.cpp:74, only logs). *)
From Coq Require Import List NArith ZArith QArith Bool Reals.
From Verif Require Import Base_Real Model_Map Model_World Model_Dynamic Model_Distribution.
Import ListNotations.

(** observer_model_parametric.cpp:71-84, AddStateDeviationFrenet, on the state vector (time, x, y, theta, velocity, ...). *)
Definition deviate_vec (state dev : list R) : option (list R) :=
  match state, dev with
  | t :: x :: y :: th :: v :: rest, d0 :: d1 :: d2 :: d3 :: _ =>
      Some (t :: (x + (d0 * cos th + d1 * sin th))%R :: (y + (d0 * sin th + d1 * cos th))%R :: (th + d2)%R :: (v + d3)%R :: rest)
  | _, _ => None
  end.

Section Observer.
  Context {T : Types} (O : Ops T).
  Variables (G : Type) (u01 : G -> R * G) (polar : G -> (R * R) * G) (zq : R -> R).
  (** The deviation of one state by one sample; in the program [deviate_vec] on the state vector. *)
  Variable dev : tState T -> list R -> option (tState T).

  (** The observer: its two distributions (the objects behind the shared pointers) and observe_only_for_agents_. *)
  Record pobs : Type := mkPobs { po_ego : dist G; po_others : dist G; po_only : list N }.

  (** agent.hpp:174-176, SetCurrentState. *)
  Fixpoint set_last {A B} (l : list (A * B)) (s : A) : option (list (A * B)) :=
    match l with
    | [] => None
    | [(_, b)] => Some [(s, b)]
    | p :: r => option_map (cons p) (set_last r s)
    end.
  Definition set_current_state (a : agent T) (s : tState T) : option (agent T) :=
    option_map (set_hist a) (set_last (ag_hist a) s).

  (** AddStateDeviationFrenet on the agent with the given id in the cloned world. *)
  Definition add_deviation (d : dist G) (m : kmap (agent T)) (id : N) : option (dist G * kmap (agent T)) :=
    match sample G u01 polar zq d, m_find id m with
    | Some (x, d'), Some a =>
        match current_state a with
        | None => None
        | Some s => match dev s x with
                    | None => None
                    | Some s' => option_map (fun a' => (d', m_insert id a' m)) (set_current_state a s')
                    end
        end
    | _, _ => None
    end.
  Fixpoint add_deviations (d : dist G) (m : kmap (agent T)) (ids : list N) : option (dist G * kmap (agent T)) :=
    match ids with
    | [] => Some (d, m)
    | id :: r => match add_deviation d m id with Some (d', m') => add_deviations d' m' r | None => None end
    end.

  (** observer_model_parametric.cpp:43-68, Observe (GetOtherAgents, observed_world.hpp, is the map of all agents but the ego). *)
  Definition param_observe (po : pobs) (w : world T) (id : N) : option (pobs * observed T) :=
    let cw := clone_world O w in
    if negb (match po_only po with [] => true | _ => false end) && negb (existsb (N.eqb id) (po_only po)) then
      Some (po, mkObserved cw id)
    else
      match m_find id (w_agents w) with
      | None => None
      | Some _ =>
          match add_deviation (po_ego po) (w_agents cw) id with
          | None => None
          | Some (de, m1) =>
              match add_deviations (po_others po) m1 (filter (fun k => negb (N.eqb k id)) (map fst (w_agents cw))) with
              | None => None
              | Some (dn, m2) => Some (mkPobs de dn (po_only po), mkObserved (set_agents cw m2) id)
              end
          end
      end.

  (** observer_model.hpp:43-45 and observer_model_parametric.cpp:37-40: the copy constructor. *)
  Definition copy_pobs (po : pobs) : pobs := mkPobs (po_ego po) (po_others po) [].
End Observer.
Arguments mkPobs {G}. Arguments po_ego {G}. Arguments po_others {G}. Arguments po_only {G}. Arguments copy_pobs {G}.
