(** russell_nonlin/src/iteration_error.rs `analyze_residual`, on the bit patterns of IEEE 754 binary64
    numbers (Float_Model), for the numbers that are not finite.

    The index of the entry of largest magnitude is computed by BLAS (`cblas_idamax`); it is a parameter
    here. *)
From Coq Require Import ZArith Bool List.
From Verif Require Export Float_Model.
Import ListNotations.
Open Scope Z_scope.

(** `f64::max(a, b)`: the other number if one is a NaN (core::f64) *)
Definition f_max (a b : Z) : Z :=
  if f_is_nan a then b else if f_is_nan b then a else if f_lt a b then b else a.

(** russell_lab/src/vector/vec_norm.rs:36-51 `vec_norm` with Norm::Max; `v.get` panics out of range *)
Definition f_norm_max (idamax : list Z -> nat) (v : list Z) : res Z :=
  match v with
  | [] => Ok (f_zero false)
  | _ => x <- vget v (idamax v) ;; Ok (f_abs x)
  end.

(** iteration_error.rs:132-142 `analyze_residual` up to the check of convergence (the divergence counters
    that follow are in Nonlin_Model.analyze_residual): residual_max, whether the step is to fail with
    NanOrInfResidual, and residual_converged (None when the function has returned before) *)
Definition f_analyze_residual (idamax : list Z -> nat) (tol : Z) (gg : list Z) (nn : Z) : res (Z * bool * option bool) :=
  norm <- f_norm_max idamax gg ;;
  let rmax := f_max norm (f_abs nn) in
  if negb (f_is_finite rmax) then Ok (rmax, true, None)
  else Ok (rmax, false, Some (f_lt rmax tol)).
