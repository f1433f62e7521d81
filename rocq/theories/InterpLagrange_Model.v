(** Model of russell_lab/src/algo/interp_lagrange.rs over the reals. *)
From Coq Require Import Reals List String ZArith.
From Verif Require Import Base RBase LabVec_Model Dense_Model Cheb_Model ChebFn_Model MathFn_Model Search_Model.
Import ListNotations.
Open Scope R_scope.
Open Scope string_scope.

(** interp_lagrange.rs:6 *)
Definition DX_EPSILON : R := 10 * FEPS.

(** interp_lagrange.rs:10-14 *)
Inductive interp_grid := Uniform | ChebyshevGauss | ChebyshevGaussLobatto.

(** interp_lagrange.rs:18-33 *)
Record interp_params := mkIP {
  grid_type : interp_grid;
  no_eta_normalization : bool;
  eta_cutoff : nat;
  lebesgue_estimate_nstation : nat;
  error_estimate_nstation : nat
}.

(** interp_lagrange.rs:37-45 *)
Definition ip_default : interp_params := mkIP ChebyshevGaussLobatto false (N.to_nat 700) (N.to_nat 10000) (N.to_nat 1000).

(** interp_lagrange.rs:48-56 `validate` *)
Definition ip_validate (p : interp_params) : res unit :=
  if (lebesgue_estimate_nstation p <? 2)%nat then Err "lebesgue_estimate_nstation must be ≥ 2"
  else if (error_estimate_nstation p <? 2)%nat then Err "error_estimate_nstation must be ≥ 2"
  else Ok tt.

(** interp_lagrange.rs:249-273 *)
Record lagrange := mkLag {
  lg_nn : nat;
  lg_params : interp_params;
  lg_npoint : nat;
  lg_xx : list R;
  lg_eta : list R;
  lg_lambda : list R;
  lg_dd1 : dmat R;
  lg_dd2 : dmat R
}.

(** interp_lagrange.rs:320-324 *)
Definition lg_points (g : interp_grid) (nn npoint : nat) : res (list R) :=
  match g with
  | Uniform => unwrap (v_linspace R 0 Rplus Rminus Rmult Rdiv (fun n => Ok (INR n)) (-1) 1 npoint)
  | ChebyshevGauss => chebyshev_gauss_points nn
  | ChebyshevGaussLobatto => chebyshev_lobatto_points nn
  end.

(** interp_lagrange.rs:340-348 *)
Definition lg_lambda_direct (npoint : nat) (xx : list R) : res (list R) :=
  for_range 0 npoint (fun j lambda =>
    prod <- for_range 0 npoint (fun k prod =>
      if (k =? j)%nat then Ok prod
      else xj <- vget xx j ;; xk <- vget xx k ;; Ok (prod * (xj - xk))) 1 ;;
    vset lambda j (1 / prod)) (repeat 0 npoint).

(** interp_lagrange.rs:356-362 *)
Definition lg_calc_eta (npoint : nat) (xx : list R) : res (list R) :=
  for_range 0 npoint (fun j eta =>
    for_range 0 npoint (fun k eta =>
      if (k =? j)%nat then Ok eta
      else
        xj <- vget xx j ;; xk <- vget xx k ;;
        e <- vget eta j ;;
        vset eta j (e + ln (Rabs (xj - xk)))) eta) (repeat 0 npoint).

(** interp_lagrange.rs:363-394; [is_finite] (line 393) holds for every real
    number.  `f64::powf(2.0, y)` is [Rpower 2 y]. *)
Definition lg_lambda_eta (nn npoint cutoff : nat) (eta : list R) : res (list R) :=
  let nnf := INR nn in
  let '(c0, c1, c2) :=
    if (cutoff <? nn)%nat then (Rpower 2 (nnf / 3), Rpower 2 (nnf / 3), Rpower 2 (nnf / 3 - 1) / nnf)
    else (Rpower 2 (nnf - 1) / nnf, 0, 0) in
  for_range 0 npoint (fun j lambda =>
    let aj := neg_one_pow_n (Z.of_nat (j + nn)) in
    e <- vget eta j ;;
    let mj := - e in
    if (cutoff <? nn)%nat then
      let bj := exp (mj / 3) in
      lambda <- vset lambda j (aj * bj / c0) ;;
      l <- vget lambda j ;;
      lambda <- vset lambda j (l * (bj / c1)) ;;
      l <- vget lambda j ;;
      vset lambda j (l * (bj / c2))
    else
      let bj := exp mj in
      vset lambda j (aj * bj / c0)) (repeat 0 npoint).

(** interp_lagrange.rs:303-399 `new` *)
Definition lg_new (nn : nat) (params : option interp_params) : res lagrange :=
  if (nn <? 1)%nat || (N.to_nat 2048 <? nn)%nat then Err "the polynomial degree must be in [1, 2048]"
  else
    let par := match params with Some p => p | None => ip_default end in
    _ <- ip_validate par ;;
    let npoint := (nn + 1)%nat in
    xx <- lg_points (grid_type par) nn npoint ;;
    if no_eta_normalization par then
      lambda <- lg_lambda_direct npoint xx ;;
      Ok (mkLag nn par npoint xx [] lambda (d_new R 0 0 0) (d_new R 0 0 0))
    else
      eta <- lg_calc_eta npoint xx ;;
      lambda <- lg_lambda_eta nn npoint (eta_cutoff par) eta ;;
      Ok (mkLag nn par npoint xx eta lambda (d_new R 0 0 0) (d_new R 0 0 0)).

(** interp_lagrange.rs:480-483: the sum of λk/(x-xk).  In floating-point
    arithmetic a vanishing denominator makes the sum infinite: [None] *)
Definition lg_sum (s : lagrange) (x : R) : res (option R) :=
  for_range 0 (lg_npoint s) (fun k sum =>
    lk <- vget (lg_lambda s) k ;;
    xk <- vget (lg_xx s) k ;;
    Ok (match sum with
        | None => None
        | Some v => if Reqb x xk then None else Some (v + lk / (x - xk))
        end)) (Some 0).

(** interp_lagrange.rs:470-485 `psi`; a finite number divided by an infinite
    sum is zero *)
Definition lg_psi (s : lagrange) (j : nat) (x : R) : res R :=
  if (lg_nn s <? j)%nat then Err "j must be in 0 ≤ j ≤ N"
  else if Rltb x (-1) || Rltb 1 x then Err "x must be in -1 ≤ x ≤ 1"
  else
    xj <- vget (lg_xx s) j ;;
    if Rltb (Rabs (x - xj)) DX_EPSILON then Ok 1
    else
      sum <- lg_sum s x ;;
      lj <- vget (lg_lambda s) j ;;
      Ok (match sum with None => 0 | Some v => lj / (x - xj) / v end).

(** interp_lagrange.rs:531-543 `eval` *)
Definition lg_eval (s : lagrange) (x : R) (uu : list R) : res R :=
  if Rltb x (-1) || Rltb 1 x then Err "x must be in -1 ≤ x ≤ 1"
  else if negb (length uu =? lg_npoint s)%nat then Err "the dimension of the data vector U must be equal to N + 1"
  else
    for_range 0 (lg_npoint s) (fun j r =>
      u <- vget uu j ;;
      p <- unwrap (lg_psi s j x) ;;
      Ok (r + u * p)) 0.

(** interp_lagrange.rs:622-629, 741-748: the first node nearer than the tolerance *)
Fixpoint lg_find (xx : list R) (x : R) (count j : nat) : res (option nat) :=
  match count with
  | O => Ok None
  | S c => xj <- vget xx j ;; if Rltb (Rabs (x - xj)) DX_EPSILON then Ok (Some j) else lg_find xx x c (S j)
  end.

(** interp_lagrange.rs:613-630, 732-749 *)
Definition lg_at_node (s : lagrange) (x : R) : res (option nat) :=
  if Reqb x (-1) then Ok (Some 0%nat)
  else if Reqb x 1 then Ok (Some (lg_nn s))
  else lg_find (lg_xx s) x (lg_npoint s) 0.

(** interp_lagrange.rs:606-652 `eval_deriv1` *)
Definition lg_eval_deriv1 (s : lagrange) (x : R) (uu : list R) : res R :=
  if Rltb x (-1) || Rltb 1 x then Err "x must be in -1 ≤ x ≤ 1"
  else if negb (length uu =? lg_npoint s)%nat then Err "the dimension of the data vector U must be equal to N + 1"
  else
    at_node <- lg_at_node s x ;;
    match at_node with
    | Some k =>
        sum <- for_range 0 (lg_npoint s) (fun j sum =>
          if (j =? k)%nat then Ok sum
          else
            lj <- vget (lg_lambda s) j ;;
            uk <- vget uu k ;; uj <- vget uu j ;;
            xk <- vget (lg_xx s) k ;; xj <- vget (lg_xx s) j ;;
            Ok (sum + lj * (uk - uj) / (xk - xj))) 0 ;;
        lk <- vget (lg_lambda s) k ;;
        Ok (- sum / lk)
    | None =>
        pnu_x <- unwrap (lg_eval s x uu) ;;
        ' (num, den) <- for_range 0 (lg_npoint s) (fun j nd =>
          let '(num, den) := nd in
          xj <- vget (lg_xx s) j ;;
          let dx := x - xj in
          lj <- vget (lg_lambda s) j ;;
          let a := lj / dx in
          uj <- vget uu j ;;
          Ok (num + a * (pnu_x - uj) / dx, den + a)) (0, 0) ;;
        Ok (num / den)
    end.

(** interp_lagrange.rs:725-785 `eval_deriv2` *)
Definition lg_eval_deriv2 (s : lagrange) (x : R) (uu : list R) : res R :=
  if Rltb x (-1) || Rltb 1 x then Err "x must be in -1 ≤ x ≤ 1"
  else if negb (length uu =? lg_npoint s)%nat then Err "the dimension of the data vector U must be equal to N + 1"
  else
    at_node <- lg_at_node s x ;;
    match at_node with
    | Some k =>
        sum <- for_range 0 (lg_npoint s) (fun j sum =>
          if (j =? k)%nat then Ok sum
          else
            lj <- vget (lg_lambda s) j ;;
            xk <- vget (lg_xx s) k ;; xj <- vget (lg_xx s) j ;;
            Ok (sum + lj / (xk - xj))) 0 ;;
        lk <- vget (lg_lambda s) k ;;
        let d1kk := - sum / lk in
        sum <- for_range 0 (lg_npoint s) (fun j sum =>
          if (j =? k)%nat then Ok sum
          else
            xk <- vget (lg_xx s) k ;; xj <- vget (lg_xx s) j ;;
            let dx := xk - xj in
            lj <- vget (lg_lambda s) j ;;
            let d1kj := (lj / lk) / dx in
            uk <- vget uu k ;; uj <- vget uu j ;;
            Ok (sum + d1kj * (d1kk - 1 / dx) * (uk - uj))) 0 ;;
        Ok (-2 * sum)
    | None =>
        pnu_x <- unwrap (lg_eval s x uu) ;;
        d_pnu_x <- unwrap (lg_eval_deriv1 s x uu) ;;
        ' (num, den) <- for_range 0 (lg_npoint s) (fun j nd =>
          let '(num, den) := nd in
          xj <- vget (lg_xx s) j ;;
          let dx := x - xj in
          lj <- vget (lg_lambda s) j ;;
          let a := lj / dx in
          let b := 2 / dx in
          uj <- vget uu j ;;
          let c := d_pnu_x + (uj - pnu_x) / dx in
          Ok (num + a * b * c, den + a)) (0, 0) ;;
        Ok (num / den)
    end.

(** interp_lagrange.rs:841, 854-855: the off-diagonal entry of D1 *)
Definition lg_dd1_entry (s : lagrange) (k j : nat) : res R :=
  xk <- vget (lg_xx s) k ;; xj <- vget (lg_xx s) j ;;
  if no_eta_normalization (lg_params s) then
    lj <- vget (lg_lambda s) j ;; lk <- vget (lg_lambda s) k ;;
    Ok ((lj / lk) / (xk - xj))
  else
    ek <- vget (lg_eta s) k ;; ej <- vget (lg_eta s) j ;;
    let r := neg_one_pow_n (Z.of_nat (k + j)) * exp (ek - ej) in
    Ok (r / (xk - xj)).

(** interp_lagrange.rs:837-847, 850-861, 920-930: fill a matrix, with the
    negative sum of each row on its diagonal *)
Definition lg_fill (npoint : nat) (entry : nat -> nat -> res R) (m : dmat R) : res (dmat R) :=
  for_range 0 npoint (fun k m =>
    ' (m, row_sum) <- for_range 0 npoint (fun j mr =>
      let '(m, row_sum) := mr in
      if (k =? j)%nat then Ok (m, row_sum)
      else
        v <- entry k j ;;
        m <- d_set m k j v ;;
        Ok (m, row_sum + v)) (m, 0) ;;
    d_set m k k (- row_sum)) m.

(** interp_lagrange.rs:828-863 `calc_dd1_matrix` *)
Definition lg_calc_dd1 (s : lagrange) : res lagrange :=
  if (d_nrow (lg_dd1 s) =? lg_npoint s)%nat then Ok s
  else
    m <- lg_fill (lg_npoint s) (lg_dd1_entry s) (d_new R 0 (lg_npoint s) (lg_npoint s)) ;;
    Ok (mkLag (lg_nn s) (lg_params s) (lg_npoint s) (lg_xx s) (lg_eta s) (lg_lambda s) m (lg_dd2 s)).

(** interp_lagrange.rs:924 *)
Definition lg_dd2_entry (s : lagrange) (k j : nat) : res R :=
  dkj <- d_get (lg_dd1 s) k j ;; dkk <- d_get (lg_dd1 s) k k ;;
  xk <- vget (lg_xx s) k ;; xj <- vget (lg_xx s) j ;;
  Ok (2 * dkj * (dkk - 1 / (xk - xj))).

(** interp_lagrange.rs:909-931 `calc_dd2_matrix` *)
Definition lg_calc_dd2 (s : lagrange) : res lagrange :=
  s <- lg_calc_dd1 s ;;
  if (d_nrow (lg_dd2 s) =? lg_npoint s)%nat then Ok s
  else
    m <- lg_fill (lg_npoint s) (lg_dd2_entry s) (d_new R 0 (lg_npoint s) (lg_npoint s)) ;;
    Ok (mkLag (lg_nn s) (lg_params s) (lg_npoint s) (lg_xx s) (lg_eta s) (lg_lambda s) (lg_dd1 s) m).

(** interp_lagrange.rs:1072-1077 `get_dd1` *)
Definition lg_get_dd1 (s : lagrange) : res (dmat R) :=
  if (d_nrow (lg_dd1 s) =? 0)%nat then Err "calc_dd1_matrix must be called first" else Ok (lg_dd1 s).

(** interp_lagrange.rs:1080-1085 `get_dd2` *)
Definition lg_get_dd2 (s : lagrange) : res (dmat R) :=
  if (d_nrow (lg_dd2 s) =? 0)%nat then Err "calc_dd2_matrix must be called first" else Ok (lg_dd2 s).

(** interp_lagrange.rs:934-948 `estimate_lebesgue_constant` *)
Definition lg_estimate_lebesgue (s : lagrange) : res R :=
  let n_station := lebesgue_estimate_nstation (lg_params s) in
  for_range 0 n_station (fun j acc =>
    m <- usub n_station 1 ;;
    let x := -1 + 2 * INR j / INR m in
    p0 <- unwrap (lg_psi s 0 x) ;;
    sum <- for_range 1 (lg_npoint s) (fun i sum => p <- unwrap (lg_psi s i x) ;; Ok (sum + Rabs p)) (Rabs p0) ;;
    Ok (if Rltb acc sum then sum else acc)) 0.
