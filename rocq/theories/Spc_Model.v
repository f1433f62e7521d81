(** Model of russell_pde/src/spc_1d.rs and spc_2d.rs: spectral collocation on
    Chebyshev-Gauss-Lobatto grids, over the reals. *)
From Coq Require Import Reals Lra.
From Verif Require Import Base RBase Dense_Model Sparse_Model Eqs_Model Grid_Model Bcs_Model Cheb_Model InterpLagrange_Model Fdm_Model.
Local Open Scope R_scope.

(** grid_1d.rs:241-254 `new_chebyshev_gauss_lobatto` *)
Definition grid1_new_cgl (nx : nat) : res (grid1 R) :=
  if (nx <? 2)%nat then Err "nx must be >= 2"
  else
    coords <- chebyshev_lobatto_points (nx - 1) ;;
    Ok (mkG1 R nx coords [0%nat] [(nx - 1)%nat]).

(** grid_2d.rs:383-405 `new_chebyshev_gauss_lobatto` *)
Definition grid2_new_cgl (nx ny : nat) : res (grid2 R) :=
  if (nx <? 2)%nat then Err "nx must be >= 2"
  else if (ny <? 2)%nat then Err "ny must be >= 2"
  else
    uu <- chebyshev_lobatto_points (nx - 1) ;;
    vv <- chebyshev_lobatto_points (ny - 1) ;;
    coords <- for_range 0 ny (fun j coords =>
      for_range 0 nx (fun i coords =>
        u <- vget uu i ;; v <- vget vv j ;; Ok (coords ++ [(u, v)])%list) coords) [] ;;
    Ok (grid2_alloc R (-1, 1, -1, 1) nx ny coords true).

(** ** assembly, shared by both dimensions

    The two files contain the same text except for the computation of the value
    at row [m] and column [n], which is the parameter [val] here. *)
Section Asm.
Variable val : nat -> nat -> res R.
Variable h : eqs.

(** spc_1d.rs:788-800, spc_2d.rs:915-927 `put_val` *)
Definition spc_put_val (kk_bar kk_check : coo R) (m n : nat) (v : R) : res (coo R * coo R) :=
  row <- eqs_iu h m ;;
  p <- eqs_is_prescribed h n ;;
  if negb p then
    col <- eqs_iu h n ;;
    kk_bar <- put_unwrap R kk_bar row col v ;; Ok (kk_bar, kk_check)
  else
    col <- eqs_ip h n ;;
    kk_check <- put_unwrap R kk_check row col v ;; Ok (kk_bar, kk_check).

(** spc_1d.rs:464-509, spc_2d.rs:531-607 `get_matrices_sps`; the test `enabled_m`/`enabled_ij`,
    which the code makes before the inner loop, is part of [val] *)
Definition spc_sps (nnz_wcs extra_nnz : nat) : res (coo R * coo R) :=
  let nu := eqs_nu h in
  let np := eqs_np h in
  kk_bar <- unwrap (coo_new R 0 nu nu (nnz_wcs + extra_nnz) SymNo) ;;
  kk_check <- unwrap (coo_new R 0 nu np nnz_wcs SymNo) ;;
  for_each (eq_u_sorted h) (fun m st =>
    for_range 0 (eq_neq h) (fun n '(kk_bar, kk_check) =>
      v <- val m n ;; spc_put_val kk_bar kk_check m n v) st) (kk_bar, kk_check).

(** spc_1d.rs:541-605, spc_2d.rs:639-734 `get_matrices_lmm` *)
Definition spc_lmm (nnz_wcs extra_nnz : nat) (get_constraints_mat : bool) : res (coo R * option (coo R)) :=
  let neq := eq_neq h in
  let nlag := eqs_np h in
  let ndim := (neq + nlag)%nat in
  mm <- unwrap (coo_new R 0 ndim ndim (nnz_wcs + extra_nnz + 2 * nlag) SymNo) ;;
  mm <- for_range 0 neq (fun m mm =>
    for_range 0 neq (fun n mm => v <- val m n ;; put_unwrap R mm m n v) mm) mm ;;
  mm <- for_each (eq_p_sorted h) (fun m mm =>
    ip <- eqs_ip h m ;;
    mm <- put_unwrap R mm (neq + ip) m 1 ;; put_unwrap R mm m (neq + ip) 1) mm ;;
  if get_constraints_mat && (0 <? nlag)%nat then
    cc <- unwrap (coo_new R 0 nlag neq nlag SymNo) ;;
    cc <- for_each (eq_p_sorted h) (fun m cc => ip <- eqs_ip h m ;; put_unwrap R cc ip m 1) cc ;;
    Ok (mm, Some cc)
  else Ok (mm, None).
End Asm.

(** spc_1d.rs:803-805 `map_coord` (each direction of spc_2d.rs:930-934) *)
Definition spc_map (xmin xmax r : R) : R := (xmax + xmin + (xmax - xmin) * r) / 2.

(** ** one dimension *)

(** spc_1d.rs:113-157 `struct Spc1d` (solver choice omitted) *)
Record spc1 := mkS1 {
  s1_xmin : R; s1_xmax : R;
  s1_grid : grid1 R;
  s1_e : ebc1 (R -> R); s1_n : nbc (R -> R);
  s1_mkx : R;
  s1_eqs : eqs;
  s1_interp : lagrange }.

(** spc_1d.rs:186-235 `new` *)
Definition spc1_new (xmin xmax : R) (nx : nat) (e : ebc1 (R -> R)) (n : nbc (R -> R)) (kx : R) : res spc1 :=
  if (nx <? 2)%nat then Err "nx must be >= 2"
  else
    let nn := (nx - 1)%nat in
    if (N.to_nat 2048 <? nn)%nat then Err "the maximum allowed polynomial degree is 2048"
    else
      grid <- unwrap (grid1_new_cgl nx) ;;
      if e1_px _ e then Err "essential BCs cannot be periodic"
      else
        nodes <- ebc1_get_nodes _ e nx ;;
        equations <- eqs_recompute (eqs_new (g1_nx R grid)) nodes ;;
        interp_x <- unwrap (lg_new nn None) ;;
        interp_x <- lg_calc_dd1 interp_x ;;
        interp_x <- lg_calc_dd2 interp_x ;;
        Ok (mkS1 xmin xmax grid e n (- kx) equations interp_x).

(** spc_1d.rs:483-503 (= 563-584): the value at row m, column n *)
Definition spc1_val (f : spc1) (alpha : R) (d1r d2r : dmat R) (m n : nat) : res R :=
  let nx := g1_nx R (s1_grid f) in
  let dr_dx := 2 / (s1_xmax f - s1_xmin f) in
  let cx := dr_dx * dr_dx in
  en <- nbc1_enabled _ (s1_n f) m nx ;;
  if en : bool then
    let val := 0 in
    val <- (if (m =? 0)%nat then d <- d_get d1r m n ;; Ok (val + - s1_mkx f * d * dr_dx) else Ok val) ;;
    (if (m =? nx - 1)%nat then d <- d_get d1r m n ;; Ok (val + s1_mkx f * d * dr_dx) else Ok val)
  else
    d <- d_get d2r m n ;;
    let val := s1_mkx f * d * cx in
    Ok (if (m =? n)%nat then val + alpha else val).

(** spc_1d.rs:464-509 *)
Definition spc1_get_matrices_sps (f : spc1) (alpha : R) (extra_nnz : nat) : res (coo R * coo R) :=
  let nx := g1_nx R (s1_grid f) in
  d1r <- unwrap (lg_get_dd1 (s1_interp f)) ;;
  d2r <- unwrap (lg_get_dd2 (s1_interp f)) ;;
  spc_sps (spc1_val f alpha d1r d2r) (s1_eqs f) (nx * nx) extra_nnz.

(** spc_1d.rs:541-605 *)
Definition spc1_get_matrices_lmm (f : spc1) (alpha : R) (extra_nnz : nat) (get_constraints_mat : bool)
    : res (coo R * option (coo R)) :=
  let nx := g1_nx R (s1_grid f) in
  d1r <- unwrap (lg_get_dd1 (s1_interp f)) ;;
  d2r <- unwrap (lg_get_dd2 (s1_interp f)) ;;
  spc_lmm (spc1_val f alpha d1r d2r) (s1_eqs f) (nx * nx) extra_nnz get_constraints_mat.

(** spc_1d.rs:641-658 (= 739-755): the right-hand side of node m, stored at position k *)
Definition spc1_rhs (f : spc1) (source : R -> R) (m k : nat) (ff : list R) : res (list R) :=
  r <- grid1_coord R (s1_grid f) m ;;
  let x := spc_map (s1_xmin f) (s1_xmax f) r in
  if grid1_on_boundary R (s1_grid f) m then
    ff <- (if grid1_is_xmin R (s1_grid f) m then w <- vget (n_fun _ (s1_n f)) 0 ;; vadd R Rplus ff k (w x) else Ok ff) ;;
    (if grid1_is_xmax R (s1_grid f) m then w <- vget (n_fun _ (s1_n f)) 1 ;; vadd R Rplus ff k (w x) else Ok ff)
  else vset ff k (source x).

(** spc_1d.rs:660-670 (= 757-767): the prescribed values, stored from position [off] *)
Definition spc1_presc (f : spc1) (off : nat) (a : list R) : res (list R) :=
  for_range 0 2 (fun index a =>
    b <- vget (e1_sides _ (s1_e f)) index ;;
    if b : bool then
      s <- side_from_index index ;;
      nodes <- grid1_nodes R (s1_grid f) s ;;
      for_each nodes (fun m a =>
        ip <- eqs_ip (s1_eqs f) m ;;
        r <- grid1_coord R (s1_grid f) m ;;
        u <- vget (e1_fun _ (s1_e f)) index ;;
        vset a (off + ip) (u (spc_map (s1_xmin f) (s1_xmax f) r))) a
    else Ok a) a.

(** spc_1d.rs:630-672 `get_vectors_sps` *)
Definition spc1_get_vectors_sps (f : spc1) (source : R -> R) : res (list R * list R * list R) :=
  let nu := eqs_nu (s1_eqs f) in
  let np := eqs_np (s1_eqs f) in
  f_bar <- for_each (eq_u_sorted (s1_eqs f)) (fun m f_bar =>
    iu <- eqs_iu (s1_eqs f) m ;; spc1_rhs f source m iu f_bar) (repeat 0 nu) ;;
  a_check <- spc1_presc f 0 (repeat 0 np) ;;
  Ok (repeat 0 nu, a_check, f_bar).

(** spc_1d.rs:731-769 `get_vectors_lmm` *)
Definition spc1_get_vectors_lmm (f : spc1) (source : R -> R) : res (list R * list R) :=
  let neq := eq_neq (s1_eqs f) in
  let ndim := (neq + eqs_np (s1_eqs f))%nat in
  ff <- for_range 0 (g1_nx R (s1_grid f)) (fun m ff => spc1_rhs f source m m ff) (repeat 0 ndim) ;;
  ff <- spc1_presc f neq ff ;;
  Ok (repeat 0 ndim, ff).

(** spc_1d.rs:371-387 `calculate_flow_vectors` *)
Definition spc1_flow (f : spc1) (a : list R) : res (list R) :=
  let neq := eq_neq (s1_eqs f) in
  if negb (length a =? neq)%nat then Err "a.dim() must equal the number of equations"
  else
    d1r <- unwrap (lg_get_dd1 (s1_interp f)) ;;
    let dr_dx := 2 / (s1_xmax f - s1_xmin f) in
    for_range 0 neq (fun m wwx =>
      wx <- for_range 0 neq (fun n wx =>
        d <- d_get d1r m n ;; an <- vget a n ;; Ok (wx + s1_mkx f * d * dr_dx * an)) 0 ;;
      vset wwx m wx) (repeat 0 neq).

(** ** two dimensions *)

(** spc_2d.rs:130-190 `struct Spc2d` (solver choice omitted) *)
Record spc2 := mkS2 {
  s2_xmin : R; s2_xmax : R; s2_ymin : R; s2_ymax : R;
  s2_grid : grid2 R;
  s2_e : ebc2 (R -> R -> R); s2_n : nbc (R -> R -> R);
  s2_mkx : R; s2_mky : R;
  s2_eqs : eqs;
  s2_interp_x : lagrange; s2_interp_y : lagrange }.

(** spc_2d.rs:221-285 `new` *)
Definition spc2_new (xmin xmax ymin ymax : R) (nx ny : nat) (e : ebc2 (R -> R -> R)) (n : nbc (R -> R -> R)) (kx ky : R)
    : res spc2 :=
  if (nx <? 2)%nat then Err "nx must be >= 2"
  else if (ny <? 2)%nat then Err "ny must be >= 2"
  else
    let nn_x := (nx - 1)%nat in
    let nn_y := (ny - 1)%nat in
    if (N.to_nat 2048 <? nn_x)%nat || (N.to_nat 2048 <? nn_y)%nat then Err "the maximum allowed polynomial degree is 2048"
    else
      grid <- unwrap (grid2_new_cgl nx ny) ;;
      if e2_px _ e || e2_py _ e then Err "essential BCs cannot be periodic"
      else
        nodes <- ebc2_get_nodes _ e (grid2_nodes R grid) ;;
        equations <- eqs_recompute (eqs_new (g2_npoint R grid)) nodes ;;
        interp_x <- unwrap (lg_new nn_x None) ;;
        interp_y <- unwrap (lg_new nn_y None) ;;
        interp_x <- lg_calc_dd1 interp_x ;;
        interp_y <- lg_calc_dd1 interp_y ;;
        interp_x <- lg_calc_dd2 interp_x ;;
        interp_y <- lg_calc_dd2 interp_y ;;
        Ok (mkS2 xmin xmax ymin ymax grid e n (- kx) (- ky) equations interp_x interp_y).

(** spc_2d.rs:556-601 (= 666-712): the value at row m, column n *)
Definition spc2_val (f : spc2) (alpha : R) (d1r d1s d2r d2s : dmat R) (m n : nat) : res R :=
  let nx := g2_nx R (s2_grid f) in
  let ny := g2_ny R (s2_grid f) in
  let dr_dx := 2 / (s2_xmax f - s2_xmin f) in
  let ds_dy := 2 / (s2_ymax f - s2_ymin f) in
  let cx := dr_dx * dr_dx in
  let cy := ds_dy * ds_dy in
  let '(i, j) := grid2_get_ij R (s2_grid f) m in
  let '(k, l) := grid2_get_ij R (s2_grid f) n in
  en <- nbc2_enabled _ (s2_n f) i j nx ny ;;
  if en : bool then
    let val := 0 in
    val <- (if (i =? 0)%nat && (j =? l)%nat then d <- d_get d1r i k ;; Ok (val + - s2_mkx f * d * dr_dx) else Ok val) ;;
    val <- (if (i =? nx - 1)%nat && (j =? l)%nat then d <- d_get d1r i k ;; Ok (val + s2_mkx f * d * dr_dx) else Ok val) ;;
    val <- (if (j =? 0)%nat && (i =? k)%nat then d <- d_get d1s j l ;; Ok (val + - s2_mky f * d * ds_dy) else Ok val) ;;
    (if (j =? ny - 1)%nat && (i =? k)%nat then d <- d_get d1s j l ;; Ok (val + s2_mky f * d * ds_dy) else Ok val)
  else
    let val := 0 in
    val <- (if (j =? l)%nat then d <- d_get d2r i k ;; Ok (val + s2_mkx f * d * cx) else Ok val) ;;
    val <- (if (i =? k)%nat then d <- d_get d2s j l ;; Ok (val + s2_mky f * d * cy) else Ok val) ;;
    Ok (if (m =? n)%nat then val + alpha else val).

(** spc_2d.rs:531-607 *)
Definition spc2_get_matrices_sps (f : spc2) (alpha : R) (extra_nnz : nat) : res (coo R * coo R) :=
  let nx := g2_nx R (s2_grid f) in
  let ny := g2_ny R (s2_grid f) in
  d1r <- unwrap (lg_get_dd1 (s2_interp_x f)) ;;
  d1s <- unwrap (lg_get_dd1 (s2_interp_y f)) ;;
  d2r <- unwrap (lg_get_dd2 (s2_interp_x f)) ;;
  d2s <- unwrap (lg_get_dd2 (s2_interp_y f)) ;;
  spc_sps (spc2_val f alpha d1r d1s d2r d2s) (s2_eqs f) (nx * nx * ny * ny) extra_nnz.

(** spc_2d.rs:639-734; `n = k + l * nx` at line 700 is [n] again *)
Definition spc2_get_matrices_lmm (f : spc2) (alpha : R) (extra_nnz : nat) (get_constraints_mat : bool)
    : res (coo R * option (coo R)) :=
  let nx := g2_nx R (s2_grid f) in
  let ny := g2_ny R (s2_grid f) in
  d1r <- unwrap (lg_get_dd1 (s2_interp_x f)) ;;
  d1s <- unwrap (lg_get_dd1 (s2_interp_y f)) ;;
  d2r <- unwrap (lg_get_dd2 (s2_interp_x f)) ;;
  d2s <- unwrap (lg_get_dd2 (s2_interp_y f)) ;;
  spc_lmm (spc2_val f alpha d1r d1s d2r d2s) (s2_eqs f) (nx * nx * ny * ny) extra_nnz get_constraints_mat.

(** spc_2d.rs:761-786 (= 850-874) *)
Definition spc2_rhs (f : spc2) (source : R -> R -> R) (m k : nat) (ff : list R) : res (list R) :=
  '(r, s) <- grid2_coord R (s2_grid f) m ;;
  let x := spc_map (s2_xmin f) (s2_xmax f) r in
  let y := spc_map (s2_ymin f) (s2_ymax f) s in
  let g := s2_grid f in
  if grid2_on_boundary R g m then
    ff <- (if grid2_is_xmin R g m then w <- vget (n_fun _ (s2_n f)) 0 ;; vadd R Rplus ff k (w x y) else Ok ff) ;;
    ff <- (if grid2_is_xmax R g m then w <- vget (n_fun _ (s2_n f)) 1 ;; vadd R Rplus ff k (w x y) else Ok ff) ;;
    ff <- (if grid2_is_ymin R g m then w <- vget (n_fun _ (s2_n f)) 2 ;; vadd R Rplus ff k (w x y) else Ok ff) ;;
    (if grid2_is_ymax R g m then w <- vget (n_fun _ (s2_n f)) 3 ;; vadd R Rplus ff k (w x y) else Ok ff)
  else vset ff k (source x y).

(** spc_2d.rs:788-798 (= 876-886) *)
Definition spc2_presc (f : spc2) (off : nat) (a : list R) : res (list R) :=
  for_range 0 4 (fun index a =>
    b <- vget (e2_sides _ (s2_e f)) index ;;
    if b : bool then
      sd <- side_from_index index ;;
      for_each (grid2_nodes R (s2_grid f) sd) (fun m a =>
        ip <- eqs_ip (s2_eqs f) m ;;
        '(r, s) <- grid2_coord R (s2_grid f) m ;;
        u <- vget (e2_fun _ (s2_e f)) index ;;
        vset a (off + ip) (u (spc_map (s2_xmin f) (s2_xmax f) r) (spc_map (s2_ymin f) (s2_ymax f) s))) a
    else Ok a) a.

(** spc_2d.rs:750-800 `get_vectors_sps` *)
Definition spc2_get_vectors_sps (f : spc2) (source : R -> R -> R) : res (list R * list R * list R) :=
  let nu := eqs_nu (s2_eqs f) in
  let np := eqs_np (s2_eqs f) in
  f_bar <- for_each (eq_u_sorted (s2_eqs f)) (fun m f_bar =>
    iu <- eqs_iu (s2_eqs f) m ;; spc2_rhs f source m iu f_bar) (repeat 0 nu) ;;
  a_check <- spc2_presc f 0 (repeat 0 np) ;;
  Ok (repeat 0 nu, a_check, f_bar).

(** spc_2d.rs:842-888 `get_vectors_lmm` *)
Definition spc2_get_vectors_lmm (f : spc2) (source : R -> R -> R) : res (list R * list R) :=
  let neq := eq_neq (s2_eqs f) in
  let ndim := (neq + eqs_np (s2_eqs f))%nat in
  ff <- for_range 0 (length (g2_coords R (s2_grid f))) (fun m ff => spc2_rhs f source m m ff) (repeat 0 ndim) ;;
  ff <- spc2_presc f neq ff ;;
  Ok (repeat 0 ndim, ff).

(** spc_2d.rs:425-454 `calculate_flow_vectors` *)
Definition spc2_flow (f : spc2) (a : list R) : res (list R * list R) :=
  let neq := eq_neq (s2_eqs f) in
  if negb (length a =? neq)%nat then Err "a.dim() must equal the number of equations"
  else
    d1r <- unwrap (lg_get_dd1 (s2_interp_x f)) ;;
    d1s <- unwrap (lg_get_dd1 (s2_interp_y f)) ;;
    let dr_dx := 2 / (s2_xmax f - s2_xmin f) in
    let ds_dy := 2 / (s2_ymax f - s2_ymin f) in
    for_range 0 neq (fun m '(wwx, wwy) =>
      let '(i, j) := grid2_get_ij R (s2_grid f) m in
      '(w0, w1) <- for_range 0 neq (fun n '(w0, w1) =>
        let '(k, l) := grid2_get_ij R (s2_grid f) n in
        akl <- vget a n ;;
        w0 <- (if (j =? l)%nat then d <- d_get d1r i k ;; Ok (w0 + s2_mkx f * d * dr_dx * akl) else Ok w0) ;;
        w1 <- (if (i =? k)%nat then d <- d_get d1s j l ;; Ok (w1 + s2_mky f * d * ds_dy * akl) else Ok w1) ;;
        Ok (w0, w1)) (0, 0) ;;
      wwx <- vset wwx m w0 ;;
      wwy <- vset wwy m w1 ;;
      Ok (wwx, wwy)) (repeat 0 neq, repeat 0 neq).

(** ** the drivers *)
Section Solve.
Variable solve : coo R -> list R -> res (list R).   (** factorize + solve of the chosen linear solver *)

(** spc_1d.rs:283-295, spc_2d.rs:334-346 *)
Definition spc_solve_sps (mats : res (coo R * coo R)) (vecs : res (list R * list R * list R)) (h : eqs) : res (list R) :=
  '(kk_bar, kk_check) <- mats ;;
  '(a_bar, a_check, f_bar) <- vecs ;;
  f_bar <- unwrap (coo_mat_vec_mul_update R Rplus Rmult kk_check f_bar (-1) a_check) ;;
  a_bar <- solve kk_bar f_bar ;;
  joined_sps R 0 h a_bar a_check.

(** spc_1d.rs:275-296, 327-346 *)
Definition spc1_solve_sps (f : spc1) (alpha : R) (source : R -> R) : res (list R) :=
  _ <- ebc1_validate _ (s1_e f) (s1_n f) ;;
  spc_solve_sps (spc1_get_matrices_sps f alpha 0) (spc1_get_vectors_sps f source) (s1_eqs f).
Definition spc1_solve_lmm (f : spc1) (alpha : R) (source : R -> R) : res (list R) :=
  _ <- ebc1_validate _ (s1_e f) (s1_n f) ;;
  solve_lmm R solve (spc1_get_matrices_lmm f alpha 0 false) (spc1_get_vectors_lmm f source) (s1_eqs f).

(** spc_2d.rs:326-347, 379-398 *)
Definition spc2_solve_sps (f : spc2) (alpha : R) (source : R -> R -> R) : res (list R) :=
  _ <- ebc2_validate _ (s2_e f) (s2_n f) ;;
  spc_solve_sps (spc2_get_matrices_sps f alpha 0) (spc2_get_vectors_sps f source) (s2_eqs f).
Definition spc2_solve_lmm (f : spc2) (alpha : R) (source : R -> R -> R) : res (list R) :=
  _ <- ebc2_validate _ (s2_e f) (s2_n f) ;;
  solve_lmm R solve (spc2_get_matrices_lmm f alpha 0 false) (spc2_get_vectors_lmm f source) (s2_eqs f).
End Solve.
