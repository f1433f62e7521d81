(** Model of russell_pde/src/spc_map_2d.rs: spectral collocation on a mapped domain, over the reals. *)
From Coq Require Import Reals.
From Verif Require Import Base RBase Dense_Model LabVec_Model Sparse_Model Eqs_Model Grid_Model Bcs_Model InterpLagrange_Model Fdm_Model
  Transfinite_Model Inverse_Model Metrics_Model Spc_Model.
Local Open Scope R_scope.

(** spc_map_2d.rs:161-237; the work vectors x, dx_dr, ..., un are local to the functions below. The `metrics` field is left out:
    each `calculate_metrics` starts from a new object here, and by C95_calculate_2d the result does not depend on the earlier contents. *)
Record spm := mkSM {
  sm_grid : grid2 R;
  sm_e : ebc2 (R -> R -> R); sm_n : nbc (R -> R -> R);
  sm_mk : R;
  sm_eqs : eqs;
  sm_interp_r : lagrange; sm_interp_s : lagrange;
  sm_map : tf2 }.

(** spc_map_2d.rs:268-335 `new` *)
Definition spm_new (map : tf2) (nr ns : nat) (e : ebc2 (R -> R -> R)) (n : nbc (R -> R -> R)) (k : R) : res spm :=
  if (nr <? 2)%nat then Err "nr must be >= 2"
  else if (ns <? 2)%nat then Err "ns must be >= 2"
  else
    let nn_r := (nr - 1)%nat in
    let nn_s := (ns - 1)%nat in
    if (N.to_nat 2048 <? nn_r)%nat || (N.to_nat 2048 <? nn_s)%nat then Err "the maximum allowed polynomial degree is 2048"
    else
      grid <- unwrap (grid2_new_cgl nr ns) ;;
      if e2_px _ e || e2_py _ e then Err "essential BCs cannot be periodic"
      else
        nodes <- ebc2_get_nodes _ e (grid2_nodes R grid) ;;
        equations <- eqs_recompute (eqs_new (g2_npoint R grid)) nodes ;;
        interp_r <- unwrap (lg_new nn_r None) ;;
        interp_s <- unwrap (lg_new nn_s None) ;;
        interp_r <- lg_calc_dd1 interp_r ;;
        interp_s <- lg_calc_dd1 interp_s ;;
        interp_r <- lg_calc_dd2 interp_r ;;
        interp_s <- lg_calc_dd2 interp_s ;;
        Ok (mkSM grid e n (- k) equations interp_r interp_s map).

Section Map.
Variable lapack_inverse : dmat R -> res (R * dmat R).   (** of mat_inverse for four or more rows, not reached *)

(** spc_map_2d.rs:972-995 `calculate_metrics` *)
Definition vec2 (p : R * R) : list R := [fst p; snd p].
Definition spm_metrics (f : spm) (m : nat) : res metrics :=
  '(r, s) <- grid2_coord R (sm_grid f) m ;;
  let '(_, x_r, x_s, sec) := tf2_point_and_derivs (sm_map f) true r s in
  let '(rr, ss, rs) := match sec with Some (a, b, c) => (Some (vec2 a), Some (vec2 b), Some (vec2 c)) | None => (None, None, None) end in
  '(mt, g) <- mt_calculate_2d lapack_inverse (mt_new 2 false) (vec2 x_r) (vec2 x_s) rr ss rs ;;
  _ <- unwrap g ;;
  Ok mt.

(** spc_map_2d.rs:944-954 `calc_unit_normal`; `vec_norm` with Norm::Euc is the Euclidean norm *)
Definition spm_unit_normal (mt : metrics) (sd : side) : res (list R) :=
  let '(c, i) := match sd with Xmin => (-1, 0%nat) | Xmax => (1, 0%nat) | Ymin => (-1, 1%nat) | Ymax => (1, 1%nat) end in
  g <- vget (mt_ctr mt) i ;;
  un <- unwrap (vec_copy_scaled R Rmult [0; 0] c g) ;;
  u0 <- vget un 0 ;; u1 <- vget un 1 ;;
  let norm_u := sqrt (u0 * u0 + u1 * u1) in
  un <- vset un 0 (u0 / norm_u) ;;
  vset un 1 (u1 / norm_u).

(** the product of the unit normal and a contravariant vector, spc_map_2d.rs:595-596 and alike *)
Definition spm_proj (mt : metrics) (sd : side) (i : nat) : res R :=
  un <- spm_unit_normal mt sd ;; g <- vget (mt_ctr mt) i ;; mt_inner un g.

(** russell_pde/src/util.rs:3-5 *)
Definition delta (i j : nat) : R := if (i =? j)%nat then 1 else 0.

(** spc_map_2d.rs:581-640 (= 681-740): the value at row m, column n *)
Definition spm_val (f : spm) (alpha : R) (d1r d1s d2r d2s : dmat R) (m n : nat) : res R :=
  let nr := g2_nx R (sm_grid f) in
  let ns := g2_ny R (sm_grid f) in
  let '(i, j) := grid2_get_ij R (sm_grid f) m in
  mt <- spm_metrics f m ;;
  g11 <- d_get (mt_gg mt) 0 0 ;; g22 <- d_get (mt_gg mt) 1 1 ;; g12 <- d_get (mt_gg mt) 0 1 ;;
  ll1 <- mt_ell mt 0 ;; ll2 <- mt_ell mt 1 ;;
  en <- nbc2_enabled _ (sm_n f) i j nr ns ;;
  let '(k, l) := grid2_get_ij R (sm_grid f) n in
  if en : bool then
    let val := 0 in
    val <- (if (i =? 0)%nat && (j =? l)%nat then a <- spm_proj mt Xmin 0 ;; d <- d_get d1r i k ;; Ok (val + sm_mk f * d * a) else Ok val) ;;
    val <- (if (i =? nr - 1)%nat && (j =? l)%nat then a <- spm_proj mt Xmax 0 ;; d <- d_get d1r i k ;; Ok (val + sm_mk f * d * a) else Ok val) ;;
    val <- (if (j =? 0)%nat && (i =? k)%nat then b <- spm_proj mt Ymin 1 ;; d <- d_get d1s j l ;; Ok (val + sm_mk f * d * b) else Ok val) ;;
    (if (j =? ns - 1)%nat && (i =? k)%nat then b <- spm_proj mt Ymax 1 ;; d <- d_get d1s j l ;; Ok (val + sm_mk f * d * b) else Ok val)
  else
    e2r <- d_get d2r i k ;; e2s <- d_get d2s j l ;; e1r <- d_get d1r i k ;; e1s <- d_get d1s j l ;;
    let val := 0 + e2r * delta j l * g11 + delta i k * e2s * g22 + e1r * e1s * 2 * g12 - e1r * delta j l * ll1 - delta i k * e1s * ll2 in
    let val := val * sm_mk f in
    Ok (if (m =? n)%nat then val + alpha else val).

(** spc_map_2d.rs:568-646 `get_matrices_sps` *)
Definition spm_get_matrices_sps (f : spm) (alpha : R) (extra_nnz : nat) : res (coo R * coo R) :=
  let nr := g2_nx R (sm_grid f) in
  let ns := g2_ny R (sm_grid f) in
  d1r <- unwrap (lg_get_dd1 (sm_interp_r f)) ;;
  d1s <- unwrap (lg_get_dd1 (sm_interp_s f)) ;;
  d2r <- unwrap (lg_get_dd2 (sm_interp_r f)) ;;
  d2s <- unwrap (lg_get_dd2 (sm_interp_s f)) ;;
  spc_sps (spm_val f alpha d1r d1s d2r d2s) (sm_eqs f) (nr * nr * ns * ns) extra_nnz.

(** spc_map_2d.rs:666-762 `get_matrices_lmm` *)
Definition spm_get_matrices_lmm (f : spm) (alpha : R) (extra_nnz : nat) (get_constraints_mat : bool) : res (coo R * option (coo R)) :=
  let nr := g2_nx R (sm_grid f) in
  let ns := g2_ny R (sm_grid f) in
  d1r <- unwrap (lg_get_dd1 (sm_interp_r f)) ;;
  d1s <- unwrap (lg_get_dd1 (sm_interp_s f)) ;;
  d2r <- unwrap (lg_get_dd2 (sm_interp_r f)) ;;
  d2s <- unwrap (lg_get_dd2 (sm_interp_s f)) ;;
  spc_lmm (spm_val f alpha d1r d1s d2r d2s) (sm_eqs f) (nr * nr * ns * ns) extra_nnz get_constraints_mat.

(** spc_map_2d.rs:787-815 (= 877-903) *)
Definition spm_rhs (f : spm) (source : R -> R -> R) (m k : nat) (ff : list R) : res (list R) :=
  '(r, s) <- grid2_coord R (sm_grid f) m ;;
  let '(x, y) := tf2_point (sm_map f) r s in
  let g := sm_grid f in
  if grid2_on_boundary R g m then
    ff <- (if grid2_is_xmin R g m then w <- vget (n_fun _ (sm_n f)) 0 ;; vadd R Rplus ff k (w x y) else Ok ff) ;;
    ff <- (if grid2_is_xmax R g m then w <- vget (n_fun _ (sm_n f)) 1 ;; vadd R Rplus ff k (w x y) else Ok ff) ;;
    ff <- (if grid2_is_ymin R g m then w <- vget (n_fun _ (sm_n f)) 2 ;; vadd R Rplus ff k (w x y) else Ok ff) ;;
    (if grid2_is_ymax R g m then w <- vget (n_fun _ (sm_n f)) 3 ;; vadd R Rplus ff k (w x y) else Ok ff)
  else vset ff k (source x y).

(** spc_map_2d.rs:816-826 (= 904-914) *)
Definition spm_presc (f : spm) (off : nat) (a : list R) : res (list R) :=
  for_range 0 4 (fun index a =>
    b <- vget (e2_sides _ (sm_e f)) index ;;
    if b : bool then
      sd <- side_from_index index ;;
      for_each (grid2_nodes R (sm_grid f) sd) (fun m a =>
        ip <- eqs_ip (sm_eqs f) m ;;
        '(r, s) <- grid2_coord R (sm_grid f) m ;;
        u <- vget (e2_fun _ (sm_e f)) index ;;
        let '(x, y) := tf2_point (sm_map f) r s in
        vset a (off + ip) (u x y)) a
    else Ok a) a.

(** spc_map_2d.rs:778-828 `get_vectors_sps` *)
Definition spm_get_vectors_sps (f : spm) (source : R -> R -> R) : res (list R * list R * list R) :=
  let nu := eqs_nu (sm_eqs f) in
  let np := eqs_np (sm_eqs f) in
  f_bar <- for_each (eq_u_sorted (sm_eqs f)) (fun m f_bar =>
    iu <- eqs_iu (sm_eqs f) m ;; spm_rhs f source m iu f_bar) (repeat 0 nu) ;;
  a_check <- spm_presc f 0 (repeat 0 np) ;;
  Ok (repeat 0 nu, a_check, f_bar).

(** spc_map_2d.rs:870-916 `get_vectors_lmm` *)
Definition spm_get_vectors_lmm (f : spm) (source : R -> R -> R) : res (list R * list R) :=
  let neq := eq_neq (sm_eqs f) in
  let ndim := (neq + eqs_np (sm_eqs f))%nat in
  ff <- for_range 0 (length (g2_coords R (sm_grid f))) (fun m ff => spm_rhs f source m m ff) (repeat 0 ndim) ;;
  ff <- spm_presc f neq ff ;;
  Ok (repeat 0 ndim, ff).

(** spc_map_2d.rs:466-492 `calculate_flow_vectors` *)
Definition spm_flow (f : spm) (a : list R) : res (list R * list R) :=
  let neq := eq_neq (sm_eqs f) in
  if negb (length a =? neq)%nat then Err "a.dim() must equal the number of equations"
  else
    d1r <- unwrap (lg_get_dd1 (sm_interp_r f)) ;;
    d1s <- unwrap (lg_get_dd1 (sm_interp_s f)) ;;
    for_range 0 neq (fun m '(wwx, wwy) =>
      mt <- spm_metrics f m ;;
      let '(i, j) := grid2_get_ij R (sm_grid f) m in
      '(w0, w1) <- for_range 0 neq (fun n '(w0, w1) =>
        let '(k, l) := grid2_get_ij R (sm_grid f) n in
        akl <- vget a n ;;
        dr <- d_get d1r i k ;; ds <- d_get d1s j l ;;
        g00 <- get2 (mt_ctr mt) 0 0 ;; g01 <- get2 (mt_ctr mt) 0 1 ;; g10 <- get2 (mt_ctr mt) 1 0 ;; g11 <- get2 (mt_ctr mt) 1 1 ;;
        Ok (w0 + sm_mk f * (dr * delta j l * g00 + delta i k * ds * g10) * akl,
            w1 + sm_mk f * (dr * delta j l * g01 + delta i k * ds * g11) * akl)) (0, 0) ;;
      wwx <- vset wwx m w0 ;;
      wwy <- vset wwy m w1 ;;
      Ok (wwx, wwy)) (repeat 0 neq, repeat 0 neq).

(** spc_map_2d.rs:932-941 `for_each_coord`: the calls made to the callback, in order *)
Definition spm_coords (f : spm) : res (list (nat * R * R)) :=
  for_range 0 (length (g2_coords R (sm_grid f))) (fun m out =>
    '(r, s) <- grid2_coord R (sm_grid f) m ;;
    let '(x, y) := tf2_point (sm_map f) r s in
    Ok (out ++ [(m, x, y)])%list) [].

Section Solve.
Variable solve : coo R -> list R -> res (list R).   (** factorize + solve of the chosen linear solver *)

(** spc_map_2d.rs:378-399, 432-451 *)
Definition spm_solve_sps (f : spm) (alpha : R) (source : R -> R -> R) : res (list R) :=
  _ <- ebc2_validate _ (sm_e f) (sm_n f) ;;
  spc_solve_sps solve (spm_get_matrices_sps f alpha 0) (spm_get_vectors_sps f source) (sm_eqs f).
Definition spm_solve_lmm (f : spm) (alpha : R) (source : R -> R -> R) : res (list R) :=
  _ <- ebc2_validate _ (sm_e f) (sm_n f) ;;
  solve_lmm R solve (spm_get_matrices_lmm f alpha 0 false) (spm_get_vectors_lmm f source) (sm_eqs f).
End Solve.
End Map.
