(** Model of bark/world/goal_definition. [O] is what the goal sees of an agent
    at one AtGoal call (state, shape). *)
From Coq Require Import List ZArith Bool Reals.
From Verif Require Import Model_Angle.
Import ListNotations.

(** Sequential goals. Simplification: the sub-goal pointers of a sequential goal
    are distinct objects (see [hat_goal] below for sharing). *)
Inductive goal (O : Type) : Type :=
| GAtom (p : O -> bool)                       (* polygon / state limits / Frenet: stateless *)
| GSeq (sequential_goals : list (goal O)) (last_reached : Z).
                                              (* goal_definition_sequential.hpp:60-61 *)
Arguments GAtom {O}. Arguments GSeq {O}.

(** Call AtGoal on the i-th element of the vector and keep its new state;
    None: index out of range (undefined behaviour of operator[]). *)
Section Ask.
  Context {A : Type} (f : A -> option (bool * A)).
  Fixpoint ask (l : list A) (i : nat) : option (bool * list A) :=
    match l with
    | [] => None
    | t :: r =>
        match i with
        | O => match f t with Some (b, t') => Some (b, t' :: r) | None => None end
        | S j => match ask r j with Some (b, r') => Some (b, t :: r') | None => None end
        end
    end.
End Ask.

(** goal_definition_sequential.cpp:16-40 (and the stateless AtGoal functions).
    None: undefined behaviour (empty vector; the expectation in line 18 only
    prints). *)
Fixpoint at_goal {O} (g : goal O) (x : O) : option (bool * goal O) :=
  match g with
  | GAtom p => Some (p x, g)
  | GSeq gs last =>
      let n := Z.of_nat (length gs) in
      let finish (r : list (goal O) * Z) :=
        let (gs', last') := r in Some (Z.eqb last' (n - 1), GSeq gs' last') in
      if Z.eqb last (-1) then
        match ask (fun t => at_goal t x) gs 0 with
        | Some (b, gs') => finish (gs', if b then 0%Z else last)
        | None => None
        end
      else if (last + 1 <=? n - 1)%Z then
        match ask (fun t => at_goal t x) gs (Z.to_nat (last + 1)) with
        | Some (b, gs') => finish (gs', if b then (last + 1)%Z else last)
        | None => None
        end
      else finish (gs, last)
  end.

(** goal_definition_sequential.hpp:54 LastSequentialGoal *)
Definition last_sequential_goal {O} (g : goal O) : Z :=
  match g with GAtom _ => (-1)%Z | GSeq _ last => last end.

(** goal_definition_sequential.cpp:49-57 GetNextGoal (None: nullptr) *)
Definition get_next_goal {O} (g : goal O) : option (goal O) :=
  match g with
  | GAtom _ => None
  | GSeq gs last =>
      if Z.eqb last (-1) then nth_error gs 0
      else if (last + 1 <? Z.of_nat (length gs))%Z then nth_error gs (Z.to_nat (last + 1))
      else None
  end.

(** A history of AtGoal calls: the result of each call and the final object. *)
Fixpoint run_goal {O} (g : goal O) (h : list O) : option (list bool * goal O) :=
  match h with
  | [] => Some ([], g)
  | x :: r =>
      match at_goal g x with
      | Some (b, g') =>
          match run_goal g' r with
          | Some (bs, g'') => Some (b :: bs, g'')
          | None => None
          end
      | None => None
      end
  end.

(** ** Objects on the heap: sequential goals whose sub-goals may be (shared)
    sequential goals. Location -> sub-goal pointers and progress. *)
Inductive hsub (O : Type) := HAtom (p : O -> bool) | HRef (l : nat).
Arguments HAtom {O}. Arguments HRef {O}.
Definition gheap (O : Type) := list (list (hsub O) * Z).

Definition hset {O} (h : gheap O) (l : nat) (o : list (hsub O) * Z) : gheap O :=
  firstn l h ++ o :: skipn (S l) h.

(** AtGoal (goal_definition_sequential.cpp:16-40) on the object at [l];
    fuel bounds the nesting of sequential goals. *)
Fixpoint hat_goal {O} (fuel : nat) (h : gheap O) (l : nat) (x : O) : option (bool * gheap O) :=
  match fuel with
  | O => None
  | S f =>
      match nth_error h l with
      | None => None
      | Some (subs, last) =>
          let n := Z.of_nat (length subs) in
          let i := if Z.eqb last (-1) then 0%Z else (last + 1)%Z in
          if (Z.eqb last (-1) || (i <=? n - 1)%Z)%bool then
            match nth_error subs (Z.to_nat i) with
            | None => None
            | Some (HAtom p) =>
                let last' := if p x then i else last in
                Some (Z.eqb last' (n - 1), hset h l (subs, last'))
            | Some (HRef m) =>
                match hat_goal f h m x with
                | None => None
                | Some (b, h') =>
                    let last' := if b then i else last in
                    Some (Z.eqb last' (n - 1), hset h' l (subs, last'))
                end
            end
          else Some (Z.eqb last (n - 1), h)
      end
  end.

(** goal_definition_sequential.hpp:64-66 Clone: the copy constructor copies the
    vector of pointers and the progress. *)
Definition hclone {O} (h : gheap O) (l : nat) : option (gheap O * nat) :=
  match nth_error h l with
  | Some o => Some (h ++ [o], length h)
  | None => None
  end.

(** ** Pose and lane goals over the reals *)
Local Open Scope R_scope.
Section Pose.
  Context {Poly Line : Type}.
  (** boost::geometry::within on a point, and the tangent angle of the centre
      line at the point nearest to the agent (GetNearestPointAndS,
      GetTangentAngleAtS): external to this model. *)
  Context (within : R * R -> Poly -> bool) (tangent_at_nearest : Line -> R * R -> R).

  Record pose_obs := { o_x : R; o_y : R; o_theta : R; o_vel : R }.
  Definition Rleb (a b : R) : bool := if Rle_dec a b then true else false.
  Definition Rltb (a b : R) : bool := if Rlt_dec a b then true else false.

  (** goal_definition_state_limits.cpp:16-24 *)
  Definition at_goal_state_limits (xy_limits : Poly) (angle_limits : R * R) (a : pose_obs) : bool :=
    (within (o_x a, o_y a) xy_limits && Rleb (fst angle_limits) (o_theta a)
     && Rleb (o_theta a) (snd angle_limits))%bool.

  (** goal_definition_state_limits_frenet.cpp:50-79 *)
  Definition at_goal_frenet (p : R) (fl : R -> R) (shape : Poly) (center_line : Line)
             (max_orientation velocity_range : R * R) (a : pose_obs) : bool :=
    if (Rltb (o_vel a) (fst velocity_range) || Rltb (snd velocity_range) (o_vel a))%bool then false
    else if negb (within (o_x a, o_y a) shape) then false
    else
      let tangent_angle := tangent_at_nearest center_line (o_x a, o_y a) in
      let angle_diff := SignedAngleDiff p fl tangent_angle (o_theta a) in
      if (Rleb angle_diff (fst max_orientation)
          && Rleb (- snd max_orientation) angle_diff)%bool then true else false.
End Pose.
