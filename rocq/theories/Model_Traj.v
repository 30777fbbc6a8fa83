(* Trajectories as lists of rows; ExecutionModelInterpolate and BehaviorStaticTrajectory.
   Numbers are exact rationals; a state is a vector (list of components), component 0 is time
   (bark/models/dynamic/dynamic_model.hpp:24-35). *)
From Coq Require Import List NArith ZArith QArith Qabs Bool Arith.
From Verif Require Import Model_World.
Import ListNotations.

Definition state := list Q.
Definition time (s : state) : Q := hd 0 s.
Definition traj := list state.

(* Eigen: a*p0 + b*p1 componentwise *)
Fixpoint lincomb (a b : Q) (p0 p1 : state) : state :=
  match p0, p1 with
  | x :: r0, y :: r1 => a * x + b * y :: lincomb a b r0 r1
  | _, _ => []
  end.

Definition Qlt_bool (x y : Q) : bool := negb (Qle_bool y x).

(* const double delta = 1e-3 (interpolate.cpp:23, 41) *)
Definition delta : Q := 1 # 1000.

(* ---- bark/models/execution/interpolation/interpolate.cpp ---- *)

(* :20-35 CheckIfWorldTimeIsWithinTrajectory; None = out-of-bounds access on an empty trajectory *)
Definition within_traj (tr : traj) (t : Q) : option bool :=
  match hd_error tr, last_opt tr with
  | Some f, Some l => Some (negb (Qlt_bool (t + delta) (time f) || Qlt_bool (time l) (t - delta)))
  | _, _ => None
  end.

Definition hits (t : Q) (r : state) : bool := Qlt_bool (Qabs (time r - t)) delta.

(* :37-58 CheckIfTimeExactIsInTrajectory: rows n-1 down to n/2 if the end is closer in time, else rows
   0 up to n/2 *)
Definition exact_row (tr : traj) (t : Q) : option state :=
  match hd_error tr, last_opt tr with
  | Some f, Some l =>
      let half := (length tr / 2)%nat in
      if Qlt_bool (Qabs (t - time l)) (Qabs (t - time f))
      then find (hits t) (rev (skipn half tr))
      else find (hits t) (firstn (half + 1) tr)
  | _, _ => None
  end.

(* :60-72 FindClosestLowerTrajectoryRow: the FIRST row whose time is not after t *)
Fixpoint find_lower (tr : traj) (t : Q) (i : nat) : option nat :=
  match tr with
  | [] => None
  | r :: rest => if Qle_bool (time r) t then Some i else find_lower rest t (S i)
  end.

(* :74-82 Interpolate. None = division by zero. *)
Definition interpolate (p0 p1 : state) (t : Q) : option state :=
  let dt := time p1 - time p0 in
  if Qeq_bool dt 0 then None
  else let lambda := Qabs ((t - time p0) / dt) in Some (lincomb (1 - lambda) lambda p0 p1).

Record exec_model := mkEM { em_status : estatus; em_state : state; em_traj : traj }.

(* :84-130 Execute. None = undefined behaviour (row out of range, division by zero). *)
Definition execute_interp (e : exec_model) (t : Q) (tr : traj) : option exec_model :=
  match em_status e with
  | E_INVALID => Some (mkEM E_INVALID (em_state e) tr)
  | E_VALID =>
      match within_traj tr t with
      | None => None
      | Some false => Some (mkEM E_INVALID (em_state e) tr)
      | Some true =>
          match exact_row tr t with
          | Some s => Some (mkEM E_VALID s tr)
          | None =>
              match find_lower tr t 0 with
              | Some i =>
                  match nth_error tr i, nth_error tr (i + 1) with
                  | Some p0, Some p1 =>
                      match interpolate p0 p1 t with
                      | Some s => Some (mkEM E_VALID s tr)
                      | None => None
                      end
                  | _, _ => None
                  end
              | None => Some (mkEM E_INVALID (em_state e) tr)
              end
          end
      end
  end.

(* a sequence of Execute calls *)
Fixpoint executes (e : exec_model) (l : list (Q * traj)) : option exec_model :=
  match l with
  | [] => Some e
  | (t, tr) :: r => match execute_interp e t tr with None => None | Some e' => executes e' r end
  end.

(* ---- bark/models/behavior/static_trajectory/behavior_static_trajectory.cpp ---- *)

(* :93-101 first segment containing t: its index and end rows *)
Fixpoint find_seg (tr : traj) (t : Q) (i : Z) : option (Z * state * state) :=
  match tr with
  | a :: ((b :: _) as rest) =>
      if Qle_bool (time a) t && Qle_bool t (time b) then Some (i, a, b) else find_seg rest t (i + 1)%Z
  | _ => None
  end.

Inductive seg_result := SegNone | SegUB | SegOk (interp : state) (before next : Z).

(* :84-117 Interpolate: the interpolated row, the index of the last row before and of the next row
   after; (-1,-1) if t is not covered *)
Definition interp_static (tr : traj) (t : Q) : seg_result :=
  if (length tr <? 2)%nat then SegNone else
  match find_seg tr t 0 with
  | None => SegNone
  | Some (idx, a, b) =>
      let d := time b - time a in
      if Qeq_bool d 0 then SegUB     (* 0/0 *)
      else
        let alpha := (t - time a) / d in
        let s := lincomb 1 alpha a (lincomb 1 (-1) b a) in
        if Qeq_bool alpha 0 then SegOk s (idx - 1) (idx + 1)
        else if Qeq_bool alpha 1 then SegOk s idx (idx + 2)
        else SegOk s idx (idx + 1)
  end.

(* Eigen min/maxCoeff of the time column *)
Definition qmin (x y : Q) : Q := if Qle_bool x y then x else y.
Definition qmax (x y : Q) : Q := if Qle_bool x y then y else x.
Definition min_time (tr : traj) : option Q :=
  match tr with [] => None | r :: l => Some (fold_left (fun m s => qmin m (time s)) l (time r)) end.
Definition max_time (tr : traj) : option Q :=
  match tr with [] => None | r :: l => Some (fold_left (fun m s => qmax m (time s)) l (time r)) end.

(* :141-161 UpdateBehaviorStatus *)
Definition static_status (tr : traj) (t dt : Q) : option bstatus :=
  match min_time tr, max_time tr with
  | Some mn, Some mx =>
      Some (if Qlt_bool t mn then NOT_STARTED_YET
            else if Qle_bool mx (t + dt) then EXPIRED else VALID)
  | _, _ => None
  end.

(* :37-66 Plan at world time t with horizon dt: status and returned trajectory. The action
   (CalculateAction, Frenet velocities) is not modelled. The static trajectory has the 5 standard
   columns. None = undefined behaviour: empty trajectory, 0/0, or a block with negative row count. *)
Definition static_plan (tr : traj) (t dt : Q) : option (bstatus * traj) :=
  match static_status tr t dt with
  | None => None
  | Some st =>
      match interp_static tr t, interp_static tr (t + dt) with
      | SegUB, _ | _, SegUB => None
      | SegOk s0 _ i0, SegOk s1 i1 _ =>
          if (i0 <? 0)%Z || (i1 <? 0)%Z then Some (st, [])
          else
            let n := (i1 - i0 + 1)%Z in
            if (n <? 0)%Z then None
            else Some (st, s0 :: firstn (Z.to_nat n) (skipn (Z.to_nat i0) tr) ++ [s1])
      | _, _ => Some (st, [])
      end
  end.
