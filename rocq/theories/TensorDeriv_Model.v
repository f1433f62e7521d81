(** Model of russell_tensor/src/derivatives_t2.rs and derivatives_t4.rs (default
    build: feature "heap" off). `f64` is read as a real number; `f64::powf` of a
    positive number is [Rpower]. *)
From Coq Require Import Reals Lra List.
From Verif Require Import Base RBase Tensor_Model Tensor4_Model.
Open Scope R_scope.

(** derivatives_t2.rs:27-38; the first component is the target after the call *)
Definition deriv1_norm (d1 sigma : t2) : res (t2 * option R) :=
  _ <- assert_ (rep_eqb (t2_rep d1) (t2_rep sigma)) ;;
  let nrm := t2_norm sigma in
  if Rltb 0 nrm then
    d1 <- t2_set_tensor d1 1 sigma ;;
    Ok (t2_put d1 (loop (t2_dim d1) (fun m v => wr v m (v m / nrm)) (t2_vec d1)), Some nrm)
  else Ok (d1, None).
(** derivatives_t2.rs:65-69 *)
Definition deriv1_invariant_jj2 (d1 sigma : t2) : res t2 :=
  _ <- assert_ (rep_symmetric (t2_rep sigma)) ;;
  _ <- assert_ (rep_eqb (t2_rep d1) (t2_rep sigma)) ;;
  t2_deviator sigma d1.
(** derivatives_t2.rs:97-107; returns d1 and s *)
Definition deriv1_invariant_jj3 (d1 s sigma : t2) : res (t2 * t2) :=
  _ <- assert_ (rep_symmetric (t2_rep sigma)) ;;
  _ <- assert_ (rep_eqb (t2_rep d1) (t2_rep sigma)) ;;
  _ <- assert_ (rep_eqb (t2_rep s) (t2_rep sigma)) ;;
  let jj2 := t2_invariant_jj2 sigma in
  s <- t2_deviator sigma s ;;
  d1 <- t2_squared s d1 ;;
  let v := t2_vec d1 in
  let v := wr v 0 (v 0%nat - TWO_BY_3 * jj2) in
  let v := wr v 1 (v 1%nat - TWO_BY_3 * jj2) in
  let v := wr v 2 (v 2%nat - TWO_BY_3 * jj2) in
  Ok (t2_put d1 v, s).
(** derivatives_t2.rs:128-136 and 197-205: the same code with two constants *)
Definition fill_iso (d1 : t2) (c : R) : t2 :=
  let v := wr (wr (wr (t2_vec d1) 0 c) 1 c) 2 c in
  t2_put d1 (loop (t2_dim d1) (fun m v => if (m <? 3)%nat then v else wr v m 0) v).
Definition deriv1_invariant_sigma_s (d1 sigma : t2) : res t2 :=
  _ <- assert_ (rep_eqb (t2_rep d1) (t2_rep sigma)) ;;
  Ok (fill_iso d1 (1 / SQRT_3)).
Definition deriv1_invariant_p (d1 sigma : t2) : res t2 :=
  _ <- assert_ (rep_eqb (t2_rep d1) (t2_rep sigma)) ;;
  Ok (fill_iso d1 ONE_BY_3).
(** the loops `for m in 0..d1.dim() { d1.vec[m] *= a }` *)
Definition scale_vec (d1 : t2) (a : R) : t2 :=
  t2_put d1 (loop (t2_dim d1) (fun m v => wr v m (v m * a)) (t2_vec d1)).
(** derivatives_t2.rs:163-176 *)
Definition deriv1_invariant_sigma_t (d1 sigma : t2) : res (t2 * option R) :=
  _ <- assert_ (rep_symmetric (t2_rep sigma)) ;;
  _ <- assert_ (rep_eqb (t2_rep d1) (t2_rep sigma)) ;;
  let jj2 := t2_invariant_jj2 sigma in
  if Rltb TOL_J2 jj2 then
    let a := 1 / sqrt (2 * jj2) in
    d1 <- deriv1_invariant_jj2 d1 sigma ;;
    Ok (scale_vec d1 a, Some jj2)
  else Ok (d1, None).
(** derivatives_t2.rs:232-245 *)
Definition deriv1_invariant_q (d1 sigma : t2) : res (t2 * option R) :=
  _ <- assert_ (rep_symmetric (t2_rep sigma)) ;;
  _ <- assert_ (rep_eqb (t2_rep d1) (t2_rep sigma)) ;;
  let jj2 := t2_invariant_jj2 sigma in
  if Rltb TOL_J2 jj2 then
    let a := 1 / 2 * SQRT_3 / sqrt jj2 in
    d1 <- deriv1_invariant_jj2 d1 sigma ;;
    Ok (scale_vec d1 a, Some jj2)
  else Ok (d1, None).
(** derivatives_t2.rs:281-297; returns d1, s and the option *)
Definition deriv1_invariant_lode (d1 s sigma : t2) : res (t2 * t2 * option R) :=
  _ <- assert_ (rep_symmetric (t2_rep sigma)) ;;
  _ <- assert_ (rep_eqb (t2_rep d1) (t2_rep sigma)) ;;
  _ <- assert_ (rep_eqb (t2_rep s) (t2_rep sigma)) ;;
  let jj2 := t2_invariant_jj2 sigma in
  if Rltb TOL_J2 jj2 then
    ' (d1, s) <- deriv1_invariant_jj3 d1 s sigma ;;
    let jj3 := t2_invariant_jj3 sigma in
    let a := 3 / 2 * SQRT_3 / Rpower jj2 (3 / 2) in
    let b := 9 / 4 * SQRT_3 / Rpower jj2 (5 / 2) in
    Ok (t2_put d1 (loop (t2_dim d1) (fun m v => wr v m (a * v m - b * jj3 * t2_vec s m)) (t2_vec d1)), s, Some jj2)
  else Ok (d1, s, None).

(** derivatives_t4.rs:39-43; `ai.clone()` has the representation of `ai` *)
Definition deriv_inverse_tensor (dai_da : t4) (ai : t2) : res t4 :=
  ai_t <- t2_transpose ai ai ;;
  t2_odyad_t2 dai_da (-1) ai ai_t.
(** derivatives_t4.rs:75-79 *)
Definition deriv_inverse_tensor_sym (dai_da : t4) (ai : t2) : res t4 :=
  _ <- assert_ (rep_eqb (t4_rep dai_da) Symmetric) ;;
  _ <- assert_ (rep_symmetric (t2_rep ai)) ;;
  t2_ssd dai_da (- (1 / 2)) ai.
(** derivatives_t4.rs:117-120 and 175-178 *)
Definition set_ident (ii : t2) : t2 :=
  let ii := t2_clear ii in
  t2_put ii (wr (wr (wr (t2_vec ii) 0 1) 1 1) 2 1).
(** derivatives_t4.rs:112-137; returns the derivative and ii *)
Definition deriv_squared_tensor (da2_da : t4) (ii a : t2) : res (t4 * t2) :=
  _ <- assert_ (rep_eqb (t4_rep da2_da) General) ;;
  _ <- assert_ (rep_eqb (t2_rep ii) (t2_rep a)) ;;
  let ii := set_ident ii in
  da2_da <- t2_odyad_t2 da2_da 1 a ii ;;
  at_ <- t2_transpose a a ;;
  ii_odyad_at <- t2_odyad_t2 (t4_new General) 1 ii at_ ;;
  Ok (t4_put da2_da (loop 9 (fun m mm => loop 9 (fun n mm => wr2 mm m n (mm m n + t4_mat ii_odyad_at m n)) mm)
       (t4_mat da2_da)), ii).
(** derivatives_t4.rs:171-180 *)
Definition deriv_squared_tensor_sym (da2_da : t4) (ii a : t2) : res (t4 * t2) :=
  _ <- assert_ (rep_eqb (t4_rep da2_da) Symmetric) ;;
  _ <- assert_ (rep_symmetric (t2_rep a)) ;;
  _ <- assert_ (rep_eqb (t2_rep ii) (t2_rep a)) ;;
  let ii := set_ident ii in
  da2_da <- t2_qsd_t2 da2_da (1 / 2) a ii ;;
  Ok (da2_da, ii).
(** derivatives_t4.rs:203-223 *)
Definition deriv2_invariant_jj2 (d2 : t4) (sigma : t2) : res t4 :=
  _ <- assert_ (rep_eqb (t4_rep d2) Symmetric) ;;
  _ <- assert_ (rep_symmetric (t2_rep sigma)) ;;
  let dim := t4_dim d2 in
  let mm := loop dim (fun m mm => loop dim (fun n mm => wr2 mm m n 0) mm) (t4_mat d2) in
  let mm := wr2 mm 0 0 TWO_BY_3 in
  let mm := wr2 mm 0 1 (- ONE_BY_3) in
  let mm := wr2 mm 0 2 (- ONE_BY_3) in
  let mm := wr2 mm 1 0 (- ONE_BY_3) in
  let mm := wr2 mm 1 1 TWO_BY_3 in
  let mm := wr2 mm 1 2 (- ONE_BY_3) in
  let mm := wr2 mm 2 0 (- ONE_BY_3) in
  let mm := wr2 mm 2 1 (- ONE_BY_3) in
  let mm := wr2 mm 2 2 TWO_BY_3 in
  let mm := wr2 mm 3 3 1 in
  let mm := wr2 mm 4 4 1 in
  let mm := wr2 mm 5 5 1 in
  Ok (t4_put d2 mm).

(** derivatives_t4.rs:226-254 *)
Record aux_jj3 := mkAuxJ3 { aj_s : t2; aj_ii : t2; aj_psd : t4; aj_aa : t4; aj_bb : t4 }.
Definition aux_jj3_new : aux_jj3 :=
  mkAuxJ3 (t2_new Symmetric) (t2_identity Symmetric) (t4_constant_pp_symdev true) (t4_new Symmetric) (t4_new Symmetric).
(** derivatives_t4.rs:281-311 *)
Definition deriv2_invariant_jj3 (d2 : t4) (aux : aux_jj3) (sigma : t2) : res (t4 * aux_jj3) :=
  _ <- assert_ (rep_eqb (t4_rep d2) Symmetric) ;;
  _ <- assert_ (rep_symmetric (t2_rep sigma)) ;;
  s <- (if rep_eqb (t2_rep sigma) Symmetric2D
        then sig3d <- t2_sym2d_as_symmetric sigma ;; t2_deviator sig3d (aj_s aux)
        else t2_deviator sigma (aj_s aux)) ;;
  let aa := mkT4 (t4_rep (aj_aa aux)) (t4_mat (aj_aa aux)) (t4_use_loops d2) in
  aa <- t2_qsd_t2 aa (1 / 2) s (aj_ii aux) ;;
  bb <- t2_dyad_t2 (aj_bb aux) (- TWO_BY_3) (aj_ii aux) s ;;
  let dim := t4_dim d2 in
  mm <- small_mat_mat_mul (t4_mat d2) 1 (t4_mat aa) (t4_mat (aj_psd aux)) 0 dim ;;
  mm <- small_mat_update mm 1 (t4_mat bb) dim ;;
  Ok (t4_put d2 mm, mkAuxJ3 s (aj_ii aux) (aj_psd aux) aa bb).

(** derivatives_t4.rs:314-330 *)
Record aux_sigma_t := mkAuxST { as_d1_jj2 : t2; as_d2_jj2 : t4 }.
Definition aux_sigma_t_new : aux_sigma_t := mkAuxST (t2_new Symmetric) (t4_new Symmetric).
(** derivatives_t4.rs:361-389 and 420-448: the same code with another constant c,
    a = 0.5 c / powf(jj2, 0.5) and b = 0.25 c / powf(jj2, 1.5) *)
Definition deriv2_invariant_c (c : R) (d2 : t4) (aux : aux_sigma_t) (sigma : t2) : res (t4 * aux_sigma_t * option R) :=
  _ <- assert_ (rep_eqb (t4_rep d2) Symmetric) ;;
  _ <- assert_ (rep_symmetric (t2_rep sigma)) ;;
  let jj2 := t2_invariant_jj2 sigma in
  if Rltb TOL_J2 jj2 then
    let a := 1 / 2 * c / Rpower jj2 (1 / 2) in
    let b := 1 / 4 * c / Rpower jj2 (3 / 2) in
    sig <- (if rep_eqb (t2_rep sigma) Symmetric2D then t2_sym2d_as_symmetric sigma else Ok sigma) ;;
    d1_jj2 <- deriv1_invariant_jj2 (as_d1_jj2 aux) sig ;;
    d2_jj2 <- deriv2_invariant_jj2 (as_d2_jj2 aux) sig ;;
    d2 <- t2_dyad_t2 d2 (- b) d1_jj2 d1_jj2 ;;
    mm <- small_mat_update (t4_mat d2) a (t4_mat d2_jj2) (t4_dim d2) ;;
    Ok (t4_put d2 mm, mkAuxST d1_jj2 d2_jj2, Some jj2)
  else Ok (d2, aux, None).
Definition deriv2_invariant_sigma_t := deriv2_invariant_c SQRT_2.
Definition deriv2_invariant_q := deriv2_invariant_c SQRT_3.

(** derivatives_t4.rs:451-495 *)
Record aux_lode := mkAuxL {
  al_jj3 : aux_jj3; al_s : t2; al_d1_jj2 : t2; al_d1_jj3 : t2; al_d2_jj2 : t4; al_d2_jj3 : t4;
  al_22 : t4; al_23 : t4; al_32 : t4 }.
Definition aux_lode_new : aux_lode :=
  mkAuxL aux_jj3_new (t2_new Symmetric) (t2_new Symmetric) (t2_new Symmetric) (t4_new Symmetric) (t4_new Symmetric)
    (t4_new Symmetric) (t4_new Symmetric) (t4_new Symmetric).
(** derivatives_t4.rs:527-589 *)
Definition deriv2_invariant_lode (d2 : t4) (aux : aux_lode) (sigma : t2) : res (t4 * aux_lode * option R) :=
  _ <- assert_ (rep_eqb (t4_rep d2) Symmetric) ;;
  _ <- assert_ (rep_symmetric (t2_rep sigma)) ;;
  let jj2 := t2_invariant_jj2 sigma in
  if Rltb TOL_J2 jj2 then
    let jj3 := t2_invariant_jj3 sigma in
    let a := 3 / 2 * SQRT_3 / Rpower jj2 (3 / 2) in
    let b := 9 / 4 * SQRT_3 / Rpower jj2 (5 / 2) in
    let c := 45 / 8 * SQRT_3 / Rpower jj2 (7 / 2) in
    let d2_jj3 := mkT4 (t4_rep (al_d2_jj3 aux)) (t4_mat (al_d2_jj3 aux)) (t4_use_loops d2) in
    sig <- (if rep_eqb (t2_rep sigma) Symmetric2D then t2_sym2d_as_symmetric sigma else Ok sigma) ;;
    d1_jj2 <- deriv1_invariant_jj2 (al_d1_jj2 aux) sig ;;
    ' (d1_jj3, s) <- deriv1_invariant_jj3 (al_d1_jj3 aux) (al_s aux) sig ;;
    d2_jj2 <- deriv2_invariant_jj2 (al_d2_jj2 aux) sig ;;
    ' (d2_jj3, aj) <- deriv2_invariant_jj3 d2_jj3 (al_jj3 aux) sig ;;
    x22 <- t2_dyad_t2 (al_22 aux) 1 d1_jj2 d1_jj2 ;;
    x23 <- t2_dyad_t2 (al_23 aux) 1 d1_jj2 d1_jj3 ;;
    x32 <- t2_dyad_t2 (al_32 aux) 1 d1_jj3 d1_jj2 ;;
    let dim := t4_dim d2 in
    mm <- small_mat_add (t4_mat d2) a (t4_mat d2_jj3) (- b * jj3) (t4_mat d2_jj2) dim ;;
    mm <- small_mat_update mm (- b) (t4_mat x32) dim ;;
    mm <- small_mat_update mm (- b) (t4_mat x23) dim ;;
    mm <- small_mat_update mm (c * jj3) (t4_mat x22) dim ;;
    Ok (t4_put d2 mm, mkAuxL aj s d1_jj2 d1_jj3 d2_jj2 d2_jj3 x22 x23 x32, Some jj2)
  else Ok (d2, aux, None).
