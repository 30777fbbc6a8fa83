(** Doubles as exact reals extended with the infinities and NaN (no rounding, no overflow, no negative zero).
    Used where the code divides by quantities that may vanish. *)
From Coq Require Import Bool Reals Lra Arith.
From Verif Require Import Base_Real.
Local Open Scope R_scope.

Inductive ext : Type := Fin (x : R) | PInf | MInf | NaN.

Definition einf (x : R) : ext := if Rltb 0 x then PInf else if Rltb x 0 then MInf else NaN.
Definition eneg (a : ext) : ext := match a with Fin x => Fin (- x) | PInf => MInf | MInf => PInf | NaN => NaN end.
Definition eadd (a b : ext) : ext :=
  match a, b with
  | Fin x, Fin y => Fin (x + y)
  | NaN, _ | _, NaN => NaN
  | PInf, MInf | MInf, PInf => NaN
  | PInf, _ | _, PInf => PInf
  | MInf, _ | _, MInf => MInf
  end.
Definition esub (a b : ext) : ext := eadd a (eneg b).
Definition emul (a b : ext) : ext :=
  match a, b with
  | Fin x, Fin y => Fin (x * y)
  | NaN, _ | _, NaN => NaN
  | Fin x, PInf | PInf, Fin x => einf x
  | Fin x, MInf | MInf, Fin x => einf (- x)
  | PInf, PInf | MInf, MInf => PInf
  | PInf, MInf | MInf, PInf => MInf
  end.
(** x / 0 is the infinity with the sign of x (the zero counts as +0), 0 / 0 is NaN. *)
Definition ediv (a b : ext) : ext :=
  match a, b with
  | Fin x, Fin y => if Reqb y 0 then einf x else Fin (x / y)
  | NaN, _ | _, NaN => NaN
  | Fin _, _ => Fin 0
  | PInf, Fin y => if Rltb y 0 then MInf else PInf
  | MInf, Fin y => if Rltb y 0 then PInf else MInf
  | _, _ => NaN
  end.
(** a < b; false if one of them is NaN. *)
Definition eltb (a b : ext) : bool :=
  match a, b with
  | NaN, _ | _, NaN => false
  | Fin x, Fin y => Rltb x y
  | MInf, MInf => false | MInf, _ => true
  | _, MInf => false
  | PInf, _ => false | _, PInf => true
  end.
(** a >= b; false if one of them is NaN. *)
Definition egeb (a b : ext) : bool :=
  match a, b with NaN, _ | _, NaN => false | _, _ => negb (eltb a b) end.
Definition is_nan (a : ext) : bool := match a with NaN => true | _ => false end.
(** std::min(a, b) = (b < a) ? b : a and std::max(a, b) = (a < b) ? b : a. *)
Definition emin (a b : ext) : ext := if eltb b a then b else a.
Definition emax (a b : ext) : ext := if eltb a b then b else a.
Definition esqrt (a : ext) : ext :=
  match a with Fin x => if Rltb x 0 then NaN else Fin (sqrt x) | PInf => PInf | _ => NaN end.
(** std::pow with a non-negative integer exponent. *)
Definition epow (a : ext) (n : nat) : ext :=
  match n with
  | O => Fin 1
  | _ => match a with Fin x => Fin (x ^ n) | PInf => PInf | MInf => if Nat.even n then PInf else MInf | NaN => NaN end
  end.
Definition etanh (a : ext) : ext := match a with Fin x => Fin (tanh x) | PInf => Fin 1 | MInf => Fin (-1) | NaN => NaN end.

Lemma eltb_fin x y : eltb (Fin x) (Fin y) = Rltb x y. Proof. reflexivity. Qed.
Lemma emin_fin x y : emin (Fin x) (Fin y) = Fin (Rmin x y).
Proof.
  unfold emin. cbn. destruct (Rltb_spec y x); unfold Rmin; destruct (Rle_dec x y); f_equal; lra.
Qed.
Lemma emax_fin x y : emax (Fin x) (Fin y) = Fin (Rmax x y).
Proof.
  unfold emax. cbn. destruct (Rltb_spec x y); unfold Rmax; destruct (Rle_dec x y); f_equal; lra.
Qed.
Lemma ediv_fin x y : y <> 0 -> ediv (Fin x) (Fin y) = Fin (x / y).
Proof. intros H. cbn. destruct (Reqb_spec y 0); [contradiction|reflexivity]. Qed.
Lemma epow_fin x n : epow (Fin x) n = Fin (x ^ n).
Proof. destruct n; reflexivity. Qed.
