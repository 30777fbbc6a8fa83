(** The Fresnel integrals and the standard spiral of OpenDRIVE: bark/world/opendrive/odrSpiral.cpp, over the real numbers
    (the code: double; M_PI is the real number pi here). *)
From Coq Require Import Reals List Bool QArith Qreals.
From Verif Require Import Base_Real.
Import ListNotations.
Local Open Scope R_scope.

(** odrSpiral.cpp:59-119, the tables: the decimal numbers as written. *)
Definition tab_sn : list Q := [(-2.99181919401019853726e3); 7.08840045257738576863e5; (-6.29741486205862506537e7); 2.54890880573376359104e9; (-4.42979518059697779103e10); 3.18016297876567817986e11]%Q.
Definition tab_sd : list Q := [2.81376268889994315696e2; 4.55847810806532581675e4; 5.17343888770096400730e6; 4.19320245898111231129e8; 2.24411795645340920940e10; 6.07366389490084639049e11]%Q.
Definition tab_cn : list Q := [(-4.98843114573573548651e-8); 9.50428062829859605134e-6; (-6.45191435683965050962e-4); 1.88843319396703850064e-2; (-2.05525900955013891793e-1); 9.99999999999999998822e-1]%Q.
Definition tab_cd : list Q := [3.99982968972495980367e-12; 9.15439215774657478799e-10; 1.25001862479598821474e-7; 1.22262789024179030997e-5; 8.68029542941784300606e-4; 4.12142090722199792936e-2; 1.00000000000000000118]%Q.
Definition tab_fn : list Q := [4.21543555043677546506e-1; 1.43407919780758885261e-1; 1.15220955073585758835e-2; 3.45017939782574027900e-4; 4.63613749287867322088e-6; 3.05568983790257605827e-8; 1.02304514164907233465e-10; 1.72010743268161828879e-13; 1.34283276233062758925e-16; 3.76329711269987889006e-20]%Q.
Definition tab_fd : list Q := [7.51586398353378947175e-1; 1.16888925859191382142e-1; 6.44051526508858611005e-3; 1.55934409164153020873e-4; 1.84627567348930545870e-6; 1.12699224763999035261e-8; 3.60140029589371370404e-11; 5.88754533621578410010e-14; 4.52001434074129701496e-17; 1.25443237090011264384e-20]%Q.
Definition tab_gn : list Q := [5.04442073643383265887e-1; 1.97102833525523411709e-1; 1.87648584092575249293e-2; 6.84079380915393090172e-4; 1.15138826111884280931e-5; 9.82852443688422223854e-8; 4.45344415861750144738e-10; 1.08268041139020870318e-12; 1.37555460633261799868e-15; 8.36354435630677421531e-19; 1.86958710162783235106e-22]%Q.
Definition tab_gd : list Q := [1.47495759925128324529; 3.37748989120019970451e-1; 2.53603741420338795122e-2; 8.14679107184306179049e-4; 1.27545075667729118702e-5; 1.04314589657571990585e-7; 4.60680728146520428211e-10; 1.10273215066240270757e-12; 1.38796531259578871258e-15; 8.39158816283118707363e-19; 1.86958710162783236342e-22]%Q.

(** odrSpiral.cpp:121-134, polevl: reads coef[0] to coef[n]. *)
Definition polevl (x : R) (coef : list R) (n : nat) : R :=
  fold_left (fun ans c => ans * x + c) (firstn n (tl coef)) (hd 0 coef).
(** odrSpiral.cpp:136-149, p1evl: reads coef[0] to coef[n - 1], with a leading coefficient 1. *)
Definition p1evl (x : R) (coef : list R) (n : nat) : R :=
  fold_left (fun ans c => ans * x + c) (firstn (n - 1) (tl coef)) (x + hd 0 coef).
Definition reals (l : list Q) : list R := map Q2R l.

(** odrSpiral.cpp:151-188, fresnel: the results ssa and cca. *)
Definition fresnel (xxa : R) : R * R :=
  let x := Rabs xxa in
  let x2 := x * x in
  let r :=
    if Rltb x2 (41 / 16) then
      let t := x2 * x2 in
      (x * x2 * polevl t (reals tab_sn) 5 / p1evl t (reals tab_sd) 6, x * polevl t (reals tab_cn) 5 / polevl t (reals tab_cd) 6)
    else if Rltb 36974 x then (/ 2, / 2)
    else
      let t := PI * x2 in
      let u := 1 / (t * t) in
      let t := 1 / t in
      let f := 1 - u * polevl u (reals tab_fn) 9 / p1evl u (reals tab_fd) 10 in
      let g := t * polevl u (reals tab_gn) 10 / p1evl u (reals tab_gd) 11 in
      let t := PI * / 2 * x2 in
      let c := cos t in
      let s := sin t in
      let t := PI * x in
      (/ 2 - (f * c + g * s) / t, / 2 + (f * s - g * c) / t) in
  if Rltb xxa 0 then (- fst r, - snd r) else r.
(** odrSpiral.cpp:190-206 *)
Definition FresnelCos (xxa : R) : R := snd (fresnel xxa).
Definition FresnelSin (xxa : R) : R := fst (fresnel xxa).

(** odrSpiral.cpp:217-231, odrSpiral from curvature 0: x, y and t; [None]: the root of 0 is divided by.  [FC] and [FS] are the
    two results of fresnel. *)
Definition std_spiral (FC FS : R -> R) (s cDot : R) : option (R * R * R) :=
  if Reqb cDot 0 then None
  else
    let a := 1 / sqrt (Rabs cDot) * sqrt PI in
    let y := FS (s / a) in
    let x := FC (s / a) in
    let x := x * a in
    let y := y * a in
    let y := if Rltb cDot 0 then y * -1 else y in
    Some (x, y, s * s * cDot * (1 / 2)).
(** odrSpiral.cpp:275, the direction returned by odrSpiral with a start curvature *)
Definition spiral_tangent (s cDot kappa_start theta_start : R) : R := cDot * s * s * (1 / 2) + kappa_start * s + theta_start.
