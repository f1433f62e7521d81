(** Model of russell_lab/src/math/functions.rs (elementary helpers).
    f64 is modelled by R; comparisons with NaN are out of the model; exp, ln,
    sin, cos are the mathematical functions and powf is [powf] below. *)
From Coq Require Import Reals ZArith List.
From Verif Require Import Base RBase.
Import ListNotations.
Open Scope R_scope.

(** functions.rs:22-28 `neg_one_pow_n`; `n & 1 == 0` is the parity test *)
Definition neg_one_pow_n (n : Z) : R := if (Z.land n 1 =? 0)%Z then 1 else -1.

(** functions.rs:65-73 `sign` *)
Definition sign (x : R) : R := if Rltb x 0 then -1 else if Rltb 0 x then 1 else 0.

(** functions.rs:109-111 `ramp` *)
Definition ramp (x : R) : R := if Rltb x 0 then 0 else x.

(** functions.rs:139-147 `heaviside` *)
Definition heaviside (x : R) : R := if Rltb x 0 then 0 else if Rltb 0 x then 1 else 0.5.

(** functions.rs:200-211 `boxcar`; the explicit panic is [Panic] *)
Definition boxcar (x a b : R) : res R :=
  if Rleb b a then Panic
  else if (Rltb x a || Rltb b x)%bool then Ok 0
  else if (Rltb a x && Rltb x b)%bool then Ok 1
  else Ok 0.5.

(** functions.rs:236-259 `logistic`, `logistic_deriv1` *)
Definition logistic (x : R) : R := 1 / (1 + exp (- x)).
Definition logistic_deriv1 (x : R) : R := let f := logistic x in f * (1 - f).

(** functions.rs:290-341 `smooth_ramp`, `smooth_ramp_deriv1`, `smooth_ramp_deriv2`;
    `powf(z, 2.0)` of a positive number is its square *)
Definition smooth_ramp (x beta : R) : R :=
  if Rltb 500 (- beta * x) then 0 else x + ln (1 + exp (- beta * x)) / beta.
Definition smooth_ramp_deriv1 (x beta : R) : R :=
  if Rltb 500 (- beta * x) then 0 else 1 / (1 + exp (- beta * x)).
Definition smooth_ramp_deriv2 (x beta : R) : R :=
  if Rltb 500 (beta * x) then 0 else beta * exp (beta * x) / (exp (beta * x) + 1) ^ 2.

(** std `f64::powf` on a nonnegative base and a positive exponent *)
Definition powf (a k : R) : R := if Reqb a 0 then 0 else Rpower a k.

(** functions.rs:367-397 `suq_sin`, `suq_cos` *)
Definition suq_sin (x k : R) : R := sign (sin x) * powf (Rabs (sin x)) k.
Definition suq_cos (x k : R) : R := sign (cos x) * powf (Rabs (cos x)) k.

(** functions.rs:400-424 `FACTORIAL_22`: the literals are whole numbers *)
Definition FACTORIAL_22 : list Z := [
  1; 1; 2; 6; 24; 120; 720; 5040; 40320; 362880; 3628800; 39916800; 479001600;
  6227020800; 87178291200; 1307674368000; 20922789888000; 355687428096000;
  6402373705728000; 121645100408832000; 2432902008176640000;
  51090942171709440000; 1124000727777607680000]%Z.

(** functions.rs:455-460 `factorial_lookup_22` *)
Definition factorial_lookup_22 (n : nat) : res Z :=
  if (22 <? n)%nat then Panic else vget FACTORIAL_22 n.
