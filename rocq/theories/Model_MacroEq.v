(** Model of the equality of behaviors and motion primitives: bark/models/behavior/motion_primitives/macro_actions.cpp,
    macro_actions.hpp, primitives/primitive.hpp and the isEqual of the primitives, on top of Model_Primitives.
    Simplifications: the parameter sets are an arbitrary type with the result of Params::operator== as a parameter
    (Params::operator== itself is in Model_Params); a missing child is the empty one that AddChild creates; the
    primitives are the four of the library, no Python subclasses; accelerations are real numbers (no NaN). *)
From Coq Require Import Reals List Bool Arith.
From Verif Require Import Base_Real Base_Geom Model_Dynamic Model_IDM Model_Primitives.
Import ListNotations.
Local Open Scope R_scope.

Section Eq.
  Context {T : Type} (params_eq : T -> T -> bool).

  (** The two children of the parameters that are compared: BehaviorIDMLaneTracking and BehaviorIDMClassic. *)
  Record children : Type := mkCh { ch_lane : T; ch_classic : T }.

  (** A primitive object and the parameters it was built with. *)
  Definition eprim : Type := (prim * children)%type.

  Definition Reqb (a b : R) : bool := if Req_EM_T a b then true else false.

  (** idm_lane_tracking.hpp:56-61, BehaviorIDMLaneTracking::operator==. *)
  Definition lane_tracking_eq (c d : children) : bool :=
    params_eq (ch_lane c) (ch_lane d) && params_eq (ch_classic c) (ch_classic d).

  (** typeid of the primitive, primitive.hpp:81. *)
  Definition type_id (k : pkind) : nat :=
    match k with StayLane _ _ => 0 | ChangeLeft _ _ _ => 1 | ChangeRight _ _ _ => 2 | GapKeeping => 3 end.

  (** isEqual: primitive_const_acc_stay_lane.hpp:54-58 (inherited by the lane changes) and
      primitive_gap_keeping.hpp:56-59. Only called with objects of the same type. *)
  Definition is_equal (p q : eprim) : bool :=
    match p_kind (fst p), p_kind (fst q) with
    | StayLane a _, StayLane b _ | ChangeLeft a _ _, ChangeLeft b _ _ | ChangeRight a _ _, ChangeRight b _ _ =>
      Reqb a b && lane_tracking_eq (snd p) (snd q)
    | GapKeeping, GapKeeping => lane_tracking_eq (snd p) (snd q)
    | _, _ => false
    end.
  (** primitive.hpp:80-86, operator== and operator!=. *)
  Definition prim_eq (p q : eprim) : bool := Nat.eqb (type_id (p_kind (fst p))) (type_id (p_kind (fst q))) && is_equal p q.
  Definition prim_neq (p q : eprim) : bool := negb (prim_eq p q).

  (** A macro action behavior: its state and the parameters of its primitives, in order. *)
  Record ebehavior : Type := mkEB { eb_macro : macro; eb_pars : list children }.
  Definition eprims (b : ebehavior) : list eprim := combine (ma_prims (eb_macro b)) (eb_pars b).

  (** macro_actions.cpp:135-139, the loop. *)
  Fixpoint eq_loop (l r : list eprim) : bool :=
    match l, r with
    | p :: l', q :: r' => if prim_neq p q then false else eq_loop l' r'
    | _, _ => true
    end.
  (** macro_actions.cpp:129-144, operator== ; macro_actions.hpp:53-55, IsEqualTo. The other behavior is [None] if it is
      not a BehaviorMPMacroActions (nor derived from it): bad_cast is caught. *)
  Definition behavior_eq (b : ebehavior) (other : option ebehavior) : bool :=
    match other with
    | None => false
    | Some o =>
      if negb (eqb (ma_check (eb_macro b)) (ma_check (eb_macro o))) then false
      else if negb (Nat.eqb (length (eprims b)) (length (eprims o))) then false
      else eq_loop (eprims b) (eprims o)
    end.

  (** What happens to a behavior in a simulation: planning (macro_actions.cpp:34-72), choosing the next action
      (motion_primitives.hpp:47-49). Parameters do not change. *)
  Inductive eb_step : ebehavior -> ebehavior -> Prop :=
  | eb_plan b w dt s' tr : ma_plan (eb_macro b) w dt = Some (s', tr) -> eb_step b (mkEB s' (eb_pars b))
  | eb_act b a : eb_step b (mkEB (ma_act (eb_macro b) a) (eb_pars b)).
End Eq.
Arguments mkCh {T}. Arguments children : clear implicits. Arguments ebehavior : clear implicits. Arguments eprim : clear implicits.
