(** Model of bark/commons/distribution/*.hpp and Params::GetDistributionFromType (bark/commons/params/params.cpp:15-41).
    Real-valued; a thrown exception, a failed assertion or undefined behaviour is [None]. *)
From Coq Require Import Reals List Bool Arith NArith.
From Verif Require Import Base_Real.
Import ListNotations.
Local Open Scope R_scope.

(** distributions_1d.hpp:92-96: the boost distributions with their constructor arguments. *)
Inductive kind : Type := KUniform (lo hi : R) | KNormal (mean sd : R) | KBernoulli (p : R).
(** boost::math checks in the constructors: uniform_distribution throws unless lower < upper, normal_distribution unless 0 < sd,
    bernoulli_distribution unless 0 <= p <= 1. *)
Definition kind_ok (k : kind) : bool :=
  match k with
  | KUniform lo hi => Rltb lo hi
  | KNormal _ sd => Rltb 0 sd
  | KBernoulli p => Rleb 0 p && Rleb p 1
  end.
(** std::numeric_limits<double>::max(). *)
Definition dbl_max : R := (2 - / 2 ^ 52) * 2 ^ 1023.

Section Dist.
  (** std::mt19937: its state, seeding, one std::uniform_real_distribution(0, 1) draw, and one round of the polar method of
      std::normal_distribution (two standard normal variates). [zq]: quantile function of the standard normal distribution. *)
  Variables (G : Type) (seed : N -> G) (u01 : G -> R * G) (polar : G -> (R * R) * G) (zq : R -> R).

  (** FixedValue (distributions_1d.hpp:21-48), BoostDistribution1D (:50-81), MultivariateDistribution (multivariate_normal.hpp:20-63).
      The seed_ member is only written, never read after construction, and is omitted; [saved] is the second variate kept inside
      std::normal_distribution; [tr] is transform_ (computed once by Eigen's eigensolver, here given). *)
  Inductive dist : Type :=
  | DFixed (v : list R)
  | DBoost (k : kind) (g : G)
  | DMulti (mean : list R) (tr : list (list R)) (g : G) (saved : option R).

  (** boost::math::quantile for u in [0, 1) (u = 0 is an overflow error for the normal distribution). *)
  Definition quantile (k : kind) (u : R) : option R :=
    match k with
    | KUniform lo hi => Some (if Reqb u 0 then lo else u * (hi - lo) + lo)
    | KNormal m sd => if Reqb u 0 then None else Some (m + sd * zq u)
    | KBernoulli p => Some (if Rleb u (1 - p) then 0 else 1)
    end.

  (** std::normal_distribution::operator() of libstdc++. *)
  Definition normal_draw (gs : G * option R) : R * (G * option R) :=
    match snd gs with
    | Some x => (x, (fst gs, None))
    | None => let r := polar (fst gs) in (snd (fst r), (snd r, Some (fst (fst r))))
    end.
  Fixpoint normal_draws (n : nat) (gs : G * option R) : list R * (G * option R) :=
    match n with
    | O => ([], gs)
    | S n' => let r := normal_draw gs in let q := normal_draws n' (snd r) in (fst r :: fst q, snd q)
    end.
  Definition dot (a b : list R) : R := fold_right Rplus 0 (map (fun p => fst p * snd p) (combine a b)).

  (** Sample(): distributions_1d.hpp:26 and 83-90, multivariate_normal.hpp:66-73 (Eigen asserts that the sizes match). *)
  Definition sample (d : dist) : option (list R * dist) :=
    match d with
    | DFixed v => Some (v, DFixed v)
    | DBoost k g => let r := u01 g in
        match quantile k (fst r) with Some x => Some ([x], DBoost k (snd r)) | None => None end
    | DMulti mean tr g saved =>
        if forallb (fun row => Nat.eqb (length row) (length mean)) tr && Nat.eqb (length tr) (length mean) then
          let r := normal_draws (length mean) (g, saved) in
          Some (map (fun p => fst p + dot (snd p) (fst r)) (combine mean tr), DMulti mean tr (fst (snd r)) (snd (snd r)))
        else None
    end.

  (** ChangeSeed(): distributions_1d.hpp:42 and 68-71, multivariate_normal.hpp:53-56. *)
  Definition change_seed (s : N) (d : dist) : dist :=
    match d with
    | DFixed v => DFixed v
    | DBoost k g => DBoost k (seed s)
    | DMulti mean tr g saved => DMulti mean tr (seed s) saved
    end.

  (** GetSupport()[0]: distributions_1d.hpp:37-40 and 127-147, multivariate_normal.hpp:43-48. *)
  Definition support0 (d : dist) : option (R * R) :=
    match d with
    | DFixed [] => None
    | DFixed (x :: _) => Some (x, x)
    | DBoost (KUniform lo hi) _ => Some (lo, hi)
    | DBoost (KNormal _ _) _ => Some (- dbl_max, dbl_max)
    | DBoost (KBernoulli _) _ => Some (0, 1)
    | DMulti [] _ _ _ => None
    | DMulti (_ :: _) _ _ _ => Some (- dbl_max, dbl_max)
    end.

  (** The parameter object a distribution is built from (the keys of DistFromParams, distributions_1d.hpp:98-125, and of
      MeanFromParams/CovarFromParams; [dp_transform] stands for the decomposition of the covariance). *)
  Record dist_params : Type := mkDP { dp_seed : N; dp_lower : R; dp_upper : R; dp_mean : R; dp_sd : R;
                                      dp_fixed : list R; dp_mean_vec : list R; dp_transform : list (list R) }.
  (** The defaults. *)
  Definition dp_default (tr : list (list R)) : dist_params := mkDP 1234 0 1 0 1 [1] [1; 2; 3] tr.
  Inductive dist_type : Type := TUniform1D | TNormal1D | TMultivariate | TFixed | TOther.
  (** params.cpp:21-31; [TOther]: LOG(FATAL), which includes BernoulliDistribution1D. *)
  Definition make_dist (ty : dist_type) (p : dist_params) : option dist :=
    match ty with
    | TUniform1D => let k := KUniform (dp_lower p) (dp_upper p) in if kind_ok k then Some (DBoost k (seed (dp_seed p))) else None
    | TNormal1D => let k := KNormal (dp_mean p) (dp_sd p) in if kind_ok k then Some (DBoost k (seed (dp_seed p))) else None
    | TMultivariate => Some (DMulti (dp_mean_vec p) (dp_transform p) (seed (dp_seed p)) None)
    | TFixed => Some (DFixed (dp_fixed p))
    | TOther => None
    end.

  (** A client's calls on one distribution object and what it sees. *)
  Inductive dop : Type := OSample | OSeed (s : N).
  Fixpoint drun (ops : list dop) (d : dist) : option (list (list R) * dist) :=
    match ops with
    | [] => Some ([], d)
    | OSample :: r =>
        match sample d with
        | Some (x, d') => match drun r d' with Some (xs, d'') => Some (x :: xs, d'') | None => None end
        | None => None
        end
    | OSeed s :: r => drun r (change_seed s d)
    end.
End Dist.
Arguments DFixed {G}. Arguments DBoost {G}. Arguments DMulti {G}.
