(** russell_lab/src/math/{chebyshev,chebyshev_u}.rs: Chebyshev polynomials of
    the first and of the second kind, their derivatives and the Chebyshev-Gauss
    points.  f64 is read as a real number. *)
From Verif Require Import RBase.
Open Scope R_scope.
Open Scope res_scope.

(** f64::acosh, for x >= 1 *)
Definition acosh (x : R) : R := ln (x + sqrt (x * x - 1)).

(** chebyshev.rs:35-54 `chebyshev_tn` *)
Definition chebyshev_tn (n : nat) (x : R) : R :=
  if (n =? 0)%nat then 1
  else if (n =? 1)%nat then x
  else
    let p := INR n in
    if Rltb x (-1) then
      if Nat.even n then cosh (p * acosh (- x)) else - cosh (p * acosh (- x))
    else if Rltb 1 x then cosh (p * acosh x)
    else cos (p * acos x).

(** chebyshev.rs:89-112 `chebyshev_tn_deriv1`; powf(-1, p) with p = n as f64 is (-1)^n *)
Definition chebyshev_tn_deriv1 (n : nat) (x : R) : R :=
  let p := INR n in
  if Rltb (-1) x && Rltb x 1 then
    let t := acos x in
    let d1 := - p * sin (p * t) in
    let s := sin t in
    - d1 / s
  else if Reqb x 1 then p * p
  else if Reqb x (-1) then (if Nat.even n then - p * p else p * p)
  else if Rltb x (-1) then - (-1) ^ n * (p * sinh (p * acosh (- x))) / sqrt (x * x - 1)
  else p * sinh (p * acosh x) / sqrt (x * x - 1).

(** chebyshev.rs:149-181 `chebyshev_tn_deriv2`; acos(x) outside [-1, 1] is NaN and not used *)
Definition chebyshev_tn_deriv2 (n : nat) (x : R) : R :=
  let p := INR n in
  let pp := p * p in
  let t := acos x in
  if Rltb (-1) x && Rltb x 1 then
    let d1 := - p * sin (p * t) in
    let d2 := - pp * cos (p * t) in
    let c := cos t in
    let s := sin t in
    (s * d2 - c * d1) / (s * s * s)
  else if Reqb x (-1) then
    if negb (Nat.even n) then - (pp * pp - pp) / 3 else (pp * pp - pp) / 3
  else if Reqb x 1 then (pp * pp - pp) / 3
  else
    let d := x * x - 1 in
    if Rltb x (-1) then
      let r := pp * cosh (p * acosh (- x)) / d + p * x * sinh (p * acosh (- x)) / Rpower d 1.5 in
      if Nat.even n then r else - r
    else pp * cosh (p * acosh x) / d - p * x * sinh (p * acosh x) / Rpower d 1.5.

(** chebyshev_u.rs:35-62 `chebyshev_un` *)
Definition chebyshev_un (n : nat) (x : R) : R :=
  if (n =? 0)%nat then 1
  else if (n =? 1)%nat then 2 * x
  else
    let m := INR (n + 1) in
    if Rltb x (-1) then
      let acosh_val := acosh (- x) in
      let sinh_val := sinh (m * acosh_val) / sinh acosh_val in
      if Nat.even n then sinh_val else - sinh_val
    else if Rltb 1 x then
      let acosh_val := acosh x in
      sinh (m * acosh_val) / sinh acosh_val
    else if Rltb (Rabs (x - 1)) 1e-12 then m
    else if Rltb (Rabs (x + 1)) 1e-12 then (if Nat.even n then m else - m)
    else
      let acos_val := acos x in
      sin (m * acos_val) / sin acos_val.

(** chebyshev_u.rs:95-121 `chebyshev_un_deriv1` *)
Definition chebyshev_un_deriv1 (n : nat) (x : R) : R :=
  if (n =? 0)%nat then 0
  else
    let nf := INR n in
    let m := nf + 1 in
    if Rltb (Rabs (x - 1)) 1e-12 then nf * (nf + 1) * (nf + 2) / 3
    else if Rltb (Rabs (x + 1)) 1e-12 then
      let deriv_1 := nf * (nf + 1) * (nf + 2) / 3 in
      if Nat.even n then - deriv_1 else deriv_1
    else
      let u_n := chebyshev_un n x in
      let t_nplus1 := chebyshev_tn (n + 1) x in
      let denom := 1 - x * x in
      (x * u_n - m * t_nplus1) / denom.

(** chebyshev_u.rs:154-185 `chebyshev_un_deriv2` *)
Definition chebyshev_un_deriv2 (n : nat) (x : R) : R :=
  if (n =? 0)%nat || (n =? 1)%nat then 0
  else
    let nf := INR n in
    let m := nf + 1 in
    if Rltb (Rabs (x - 1)) 1e-12 then nf * (nf - 1) * (nf + 1) * (nf + 2) * (nf + 3) / 15
    else if Rltb (Rabs (x + 1)) 1e-12 then
      let deriv2_1 := nf * (nf - 1) * (nf + 1) * (nf + 2) * (nf + 3) / 15 in
      if Nat.even n then deriv2_1 else - deriv2_1
    else
      let u_n := chebyshev_un n x in
      let u_n_prime := chebyshev_un_deriv1 n x in
      let t_nplus1 := chebyshev_tn (n + 1) x in
      let t_nplus1_prime := chebyshev_tn_deriv1 (n + 1) x in
      let denom := 1 - x * x in
      let numerator1 := (u_n + x * u_n_prime - m * t_nplus1_prime) * denom in
      let numerator2 := 2 * x * (x * u_n - m * t_nplus1) in
      (numerator1 + numerator2) / (denom * denom).

(** chebyshev.rs:229-245 `chebyshev_gauss_points` *)
Definition chebyshev_gauss_points (nn : nat) : res (list R) :=
  let nf := INR nn in
  let d := 2 * nf + 2 in
  let l := (if Nat.even nn then nn / 2 else (nn + 3) / 2 - 1)%nat in
  for_range 0 l (fun i xx =>
    m <- usub nn i ;;
    let v := cos (INR (2 * i + 1) * PI / d) in
    xx <- vset xx m v ;;
    w <- vget xx m ;;
    vset xx i (- w)) (repeat 0 (nn + 1)).
