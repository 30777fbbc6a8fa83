(** Model of bark/models/behavior/idm/stochastic/idm_stochastic.{hpp,cpp}. Distributions live in a heap (shared_ptr), so that clones
    share them. World times and parameters are exact reals. *)
From Coq Require Import Reals List Bool Arith NArith.
From Verif Require Import Base_Real Model_Distribution Model_IDM.
Import ListNotations.
Local Open Scope R_scope.

(** idm_stochastic.hpp:17-21 *)
Inductive yield_intent : Type := NO_YIELD | YIELD | NOT_INITIALIZED.

(** idm_stochastic.hpp:49-62: the eight distribution members, in order of initialisation. *)
Inductive slot : Type := SHeadway | SSpacing | SMaxAcc | SDesiredVel | SComftBraking | SCoolness | SYielding | SNoYielding.
Definition slots : list slot := [SHeadway; SSpacing; SMaxAcc; SDesiredVel; SComftBraking; SCoolness; SYielding; SNoYielding].
Definition slot_index (s : slot) : nat :=
  match s with SHeadway => 0 | SSpacing => 1 | SMaxAcc => 2 | SDesiredVel => 3 | SComftBraking => 4 | SCoolness => 5
             | SYielding => 6 | SNoYielding => 7 end.

Section Stochastic.
  Variables (G : Type) (seed : N -> G) (u01 : G -> R * G) (polar : G -> (R * R) * G) (zq : R -> R).
  Definition dheap : Type := list (dist G).
  Fixpoint upd {A} (l : list A) (i : nat) (x : A) : list A :=
    match l, i with [], _ => [] | _ :: r, O => x :: r | y :: r, S i' => y :: upd r i' x end.

  (** ptr->Sample()[0]; [None]: the sampling throws or returns an empty vector. *)
  Definition hsample (h : dheap) (i : nat) : option (R * dheap) :=
    match nth_error h i with
    | Some d => match sample G u01 polar zq d with Some (x :: _, d') => Some (x, upd h i d') | _ => None end
    | None => None
    end.

  (** The members the class adds to BehaviorIDMClassic (idm_stochastic.hpp:48-65), the IDM parameters and
      max_lat_difference_to_be_front_ (base_idm.hpp:162). *)
  Record sto : Type := mkSto { s_ids : slot -> nat; s_use : bool; s_intent : yield_intent; s_duration : R; s_last_change : R;
                               s_max_lat : R; s_idm : idm_params }.

  (** idm_stochastic.cpp:13-57: the constructor; GetDistribution allocates a new object for every member. *)
  Fixpoint make_all (cfg : slot -> dist_type * dist_params) (l : list slot) : option (list (dist G)) :=
    match l with
    | [] => Some []
    | s :: r => match make_dist G seed (fst (cfg s)) (snd (cfg s)), make_all cfg r with Some d, Some ds => Some (d :: ds) | _, _ => None end
    end.
  Definition construct (cfg : slot -> dist_type * dist_params) (use : bool) (max_lat : R) (idm : idm_params) (h : dheap) : option (sto * dheap) :=
    match make_all cfg slots with
    | Some ds => Some (mkSto (fun s => (length h + slot_index s)%nat) use NOT_INITIALIZED 0 0 max_lat idm, h ++ ds)
    | None => None
    end.

  (** idm_stochastic.hpp:68-72: Clone is the member-wise copy; the shared_ptr members point to the same distributions. *)
  Definition clone_sto (b : sto) : sto := b.

  (** idm_stochastic.cpp:59-67, SampleParameters. *)
  Definition sample_parameters (b : sto) (h : dheap) : option (sto * dheap) :=
    match hsample h (s_ids b SHeadway) with None => None | Some (thw, h1) =>
    match hsample h1 (s_ids b SSpacing) with None => None | Some (sp, h2) =>
    match hsample h2 (s_ids b SMaxAcc) with None => None | Some (ma, h3) =>
    match hsample h3 (s_ids b SDesiredVel) with None => None | Some (dv, h4) =>
    match hsample h4 (s_ids b SComftBraking) with None => None | Some (cb, h5) =>
    match hsample h5 (s_ids b SCoolness) with None => None | Some (co, h6) =>
    let p := s_idm b in
    let p' := mkIDM sp thw ma dv cb (min_vel p) (max_vel p) (exponent p) (acc_ub p) (acc_lb p)
                    (brake_lane_end p) (lane_end_enabled p) (lane_end_offset p) (num_points p) co in
    Some (mkSto (s_ids b) (s_use b) (s_intent b) (s_duration b) (s_last_change b) (s_max_lat b) p', h6)
    end end end end end end.

  (** idm_stochastic.cpp:86-109, HandleIntentionChange; idm_stochastic.hpp:64-65: k_max_lat_diff_no_yield = 1, ..._yield = 8. *)
  Definition set_intent (b : sto) (i : yield_intent) (dur t lat : R) : sto := mkSto (s_ids b) (s_use b) i dur t lat (s_idm b).
  Definition handle_intention (b : sto) (h : dheap) (t : R) : option (sto * dheap) :=
    match s_intent b with
    | NOT_INITIALIZED =>
        match hsample h (s_ids b SYielding) with Some (d, h') => Some (set_intent b YIELD d t 8, h') | None => None end
    | YIELD =>
        if Rleb (s_duration b) (t - s_last_change b) then
          match hsample h (s_ids b SNoYielding) with Some (d, h') => Some (set_intent b NO_YIELD d t 1, h') | None => None end
        else Some (b, h)
    | NO_YIELD =>
        if Rleb (s_duration b) (t - s_last_change b) then
          match hsample h (s_ids b SYielding) with Some (d, h') => Some (set_intent b YIELD d t 8, h') | None => None end
        else Some (b, h)
    end.

  (** idm_stochastic.cpp:111-118, ChangeSeed. *)
  Definition reseed_at (s : N) (h : dheap) (i : nat) : dheap :=
    match nth_error h i with Some d => upd h i (change_seed G seed s d) | None => h end.
  Definition change_seed_sto (s : N) (b : sto) (h : dheap) : dheap :=
    fold_left (fun h' sl => reseed_at s h' (s_ids b sl)) [SHeadway; SSpacing; SMaxAcc; SDesiredVel; SComftBraking; SCoolness] h.

  (** idm_stochastic.cpp:69-84, GetParameterRegions: the six supports under their names. *)
  Definition parameter_region (b : sto) (h : dheap) (s : slot) : option (R * R) :=
    match nth_error h (s_ids b s) with Some d => support0 G d | None => None end.

  (** idm_stochastic.cpp:120-127, Plan, up to the call of BehaviorIDMClassic::Plan, which then uses [s_idm] and [s_max_lat]
      (max_lat_difference_to_be_front_ in CalcRelativeValues, base_idm.cpp:190-193). *)
  Definition prepare (b : sto) (h : dheap) (t : R) : option (sto * dheap) :=
    match sample_parameters b h with
    | Some (b', h') => if s_use b then handle_intention b' h' t else Some (b', h')
    | None => None
    end.
  (** The whole Plan: the classic plan with the front vehicle found with the current lateral tolerance. *)
  Definition sto_plan (b : sto) (h : dheap) (ist : idm_state) (ego : Model_Dynamic.vec) (start T : R) (corridor : option (Model_Line.line * R))
             (front_within : R -> option (R * R * action)) : option (sto * dheap * (idm_state * list Model_Dynamic.vec)) :=
    match prepare b h start with
    | Some (b', h') =>
        match idm_plan (s_idm b') (classic_trajectory (s_idm b')) ist ego start T corridor (front_within (s_max_lat b')) with
        | Some r => Some (b', h', r)
        | None => None
        end
    | None => None
    end.

  (** Successive Plan calls at given world times; before each one the distributions may have been changed by others (clones,
      reseeding): [env]. Returns the behaviour after every call. *)
  Fixpoint sto_run (b : sto) (calls : list (dheap * R)) : option (list sto) :=
    match calls with
    | [] => Some []
    | (h, t) :: r =>
        match prepare b h t with
        | Some (b', _) => match sto_run b' r with Some l => Some (b' :: l) | None => None end
        | None => None
        end
    end.
  (** Successive Plan calls of one behaviour with nobody else using its distributions. *)
  Fixpoint sto_run_alone (b : sto) (h : dheap) (times : list R) : option (list sto * sto * dheap) :=
    match times with
    | [] => Some ([], b, h)
    | t :: r =>
        match prepare b h t with
        | Some (b', h') => match sto_run_alone b' h' r with Some (l, bn, hn) => Some (b' :: l, bn, hn) | None => None end
        | None => None
        end
    end.
End Stochastic.
