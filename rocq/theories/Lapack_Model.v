(** Model of the LAPACK drivers of russell_lab that are not in Decomp_Model.v: linear systems, Cholesky factors,
    symmetric and hermitian eigenproblems, eigenvalues, complex and generalised eigenproblems, the complex singular value
    decomposition and the complex inverse. The LAPACK routines are parameters that get the contents of every array they
    may write; what is assumed of them is stated in Lapack_Thm.v. f64 is read as R and Complex64 as C. *)
From Coq Require Import Reals ZArith.
From Coquelicot Require Import Complex.
From Verif Require Import Base RBase Dense_Model Blas_Model.
Local Open Scope string_scope.
Local Open Scope nat_scope.

Local Notation C := Complex.C.

(** the common end of the drivers: the sign of info *)
Definition after {X} (info : Z) (e_neg e_pos : string) (x : X) : res X :=
  if (info <? 0)%Z then Err e_neg else if (0 <? info)%Z then Err e_pos else Ok x.

Section Generic.
Variable T : Type.

(** c_dgesv/c_zgesv: n, nrhs, a, lda, b, ldb to info, a, b *)
Variable gesv : nat -> nat -> list T -> nat -> list T -> nat -> Z * list T * list T.
(** solve_lin_sys.rs:74-111 `solve_lin_sys`, complex_solve_lin_sys.rs:88-125 `complex_solve_lin_sys`; returns b and a *)
Definition solve_lin_sys (b : list T) (a : dmat T) : res (list T * dmat T) :=
  let m := d_nrow a in
  if negb (m =? d_ncol a) then Err "matrix must be square"
  else if negb (length b =? m) then Err "vector has wrong dimension"
  else if m =? 0 then Ok (b, a)
  else
    m' <- to_i32 m ;;
    let '(info, a', b') := gesv m' 1 (d_data a) m' b m' in
    after info "LAPACK ERROR (dgesv): An argument had an illegal value" "LAPACK ERROR (dgesv): The factorization has been completed, but the factor U is exactly singular"
      (b', with_data T a a').

(** c_dpotrf/c_zpotrf: upper, n, a, lda to info, a *)
Variable potrf : bool -> nat -> list T -> nat -> Z * list T.
(** mat_cholesky.rs:93-114 `mat_cholesky`, complex_mat_cholesky.rs:93-114 `complex_mat_cholesky` (its messages say zpotrf) *)
Definition mat_cholesky (a : dmat T) (upper : bool) : res (dmat T) :=
  let m := d_nrow a in
  if negb (m =? d_ncol a) then Err "the matrix must be square"
  else
    m' <- to_i32 m ;;
    let '(info, a') := potrf upper m' (d_data a) m' in
    after info "LAPACK ERROR (dpotrf): An argument had an illegal value" "LAPACK ERROR (dpotrf): Positive definite check failed" (with_data T a a').

(** c_dsyev/c_zheev: calc_v, upper, n, a, lda to info, w, a *)
Variable syev : bool -> bool -> nat -> list T -> nat -> Z * list R * list T.
(** mat_eigen_sym.rs:81-123 `mat_eigen_sym`, complex_mat_eigen_herm.rs:104-148 `complex_mat_eigen_herm` (its messages say zheev);
    returns the eigenvalues and the eigenvectors; [l] only gives the size *)
Definition mat_eigen_sym (l : list R) (a : dmat T) (upper : bool) : res (list R * dmat T) :=
  let m := d_nrow a in
  if negb (m =? d_ncol a) then Err "matrix must be square"
  else if m =? 0 then Err "matrix dimension must be ≥ 1"
  else if negb (length l =? m) then Err "l vector has incompatible dimension"
  else
    m' <- to_i32 m ;;
    let '(info, w, a') := syev true upper m' (d_data a) m' in
    after info "LAPACK ERROR (dsyev): An argument had an illegal value" "LAPACK ERROR (dsyev): The algorithm failed to converge" (w, with_data T a a').
End Generic.

Section RealEigen.
(** c_dgeev: calc_vl, calc_vr, n, a, lda, ldvl, ldvr to info, wr, wi, vl, vr (as in Decomp_Model.v) *)
Variable dgeev : bool -> bool -> nat -> list R -> nat -> nat -> nat -> Z * list R * list R * list R * list R.
(** mat_eigenvalues.rs:88-137 `mat_eigenvalues`; [l_real] and [l_imag] only give the sizes *)
Definition mat_eigenvalues (l_real l_imag : list R) (a : dmat R) : res (list R * list R) :=
  let m := d_nrow a in
  if negb (m =? d_ncol a) then Err "matrix must be square"
  else if negb (length l_real =? m) || negb (length l_imag =? m) then Err "vectors are incompatible"
  else
    m' <- to_i32 m ;;
    let '(info, wr, wi, _, _) := dgeev false false m' (d_data a) m' 1 1 in
    after info "LAPACK ERROR (dgeev): An argument had an illegal value" "LAPACK ERROR (dgeev): The QR algorithm failed to compute all the eigenvalues, and no eigenvectors have been computed" (wr, wi).

(** c_dggev: calc_vl, calc_vr, n, a, lda, b, ldb, vl, ldvl, vr, ldvr to info, alphar, alphai, beta, vl, vr *)
Variable dggev : bool -> bool -> nat -> list R -> nat -> list R -> nat -> list R -> nat -> list R -> nat -> Z * list R * list R * list R * list R * list R.
(** mat_gen_eigen.rs:106-162 `mat_gen_eigen`: returns alpha_real, alpha_imag, beta and v; the vectors only give the sizes *)
Definition mat_gen_eigen (alpha_real alpha_imag beta : list R) (v a b : dmat R) : res (list R * list R * list R * dmat R) :=
  let m := d_nrow a in
  if negb (m =? d_ncol a) then Err "matrix must be square"
  else if negb (length alpha_real =? m) || negb (length alpha_imag =? m) || negb (length beta =? m) then Err "vectors are incompatible"
  else if negb (d_nrow v =? m) || negb (d_ncol v =? m) || negb (d_nrow b =? m) || negb (d_ncol b =? m) then Err "matrices are incompatible"
  else
    m' <- to_i32 m ;;
    let '(info, ar, ai, be, _, v') := dggev false true m' (d_data a) m' (d_data b) m' [0%R] 1 (d_data v) m' in
    after info "LAPACK ERROR (dggev): An argument had an illegal value" "LAPACK ERROR (dggev): Iterations failed " (ar, ai, be, with_data R v v').
(** mat_gen_eigen.rs:267-323 `mat_gen_eigen_lr`: returns alpha_real, alpha_imag, beta, u and v *)
Definition mat_gen_eigen_lr (alpha_real alpha_imag beta : list R) (u v a b : dmat R) : res (list R * list R * list R * dmat R * dmat R) :=
  let m := d_nrow a in
  if negb (m =? d_ncol a) then Err "matrix must be square"
  else if negb (length alpha_real =? m) || negb (length alpha_imag =? m) || negb (length beta =? m) then Err "vectors are incompatible"
  else if negb (d_nrow u =? m) || negb (d_ncol u =? m) || negb (d_nrow v =? m) || negb (d_ncol v =? m) || negb (d_nrow b =? m) || negb (d_ncol b =? m) then Err "matrices are incompatible"
  else
    m' <- to_i32 m ;;
    let '(info, ar, ai, be, u', v') := dggev true true m' (d_data a) m' (d_data b) m' (d_data u) m' (d_data v) m' in
    after info "LAPACK ERROR (dggev): An argument had an illegal value" "LAPACK ERROR (dggev): Iterations failed " (ar, ai, be, with_data R u u', with_data R v v').
End RealEigen.

Section ComplexEigen.
(** c_zgeev: calc_vl, calc_vr, n, a, lda, vl, ldvl, vr, ldvr to info, w, vl, vr *)
Variable zgeev : bool -> bool -> nat -> list C -> nat -> list C -> nat -> list C -> nat -> Z * list C * list C * list C.
(** complex_mat_eigen.rs:93-145 `complex_mat_eigen`: returns l and v *)
Definition complex_mat_eigen (l : list C) (v a : dmat C) : res (list C * dmat C) :=
  let m := d_nrow a in
  if negb (m =? d_ncol a) then Err "matrix must be square"
  else if negb (length l =? m) then Err "vectors are incompatible"
  else if negb (d_nrow v =? m) || negb (d_ncol v =? m) then Err "matrices are incompatible"
  else
    m' <- to_i32 m ;;
    let '(info, w, _, v') := zgeev false true m' (d_data a) m' [RtoC 0] 1 (d_data v) m' in
    after info "LAPACK ERROR (zgeev): An argument had an illegal value" "LAPACK ERROR (zgeev): The QR algorithm failed to compute all the eigenvalues, and no eigenvectors have been computed" (w, with_data C v v').
(** complex_mat_eigen.rs:232-288 `complex_mat_eigen_lr`: returns l, u and v *)
Definition complex_mat_eigen_lr (l : list C) (u v a : dmat C) : res (list C * dmat C * dmat C) :=
  let m := d_nrow a in
  if negb (m =? d_ncol a) then Err "matrix must be square"
  else if negb (length l =? m) then Err "vectors are incompatible"
  else if negb (d_nrow u =? m) || negb (d_ncol u =? m) || negb (d_nrow v =? m) || negb (d_ncol v =? m) then Err "matrices are incompatible"
  else
    m' <- to_i32 m ;;
    let '(info, w, u', v') := zgeev true true m' (d_data a) m' (d_data u) m' (d_data v) m' in
    after info "LAPACK ERROR (zgeev): An argument had an illegal value" "LAPACK ERROR (zgeev): The QR algorithm failed to compute all the eigenvalues, and no eigenvectors have been computed" (w, with_data C u u', with_data C v v').

(** c_zggev: calc_vl, calc_vr, n, a, lda, b, ldb, vl, ldvl, vr, ldvr to info, alpha, beta, vl, vr *)
Variable zggev : bool -> bool -> nat -> list C -> nat -> list C -> nat -> list C -> nat -> list C -> nat -> Z * list C * list C * list C * list C.
(** complex_mat_gen_eigen.rs:104-160 `complex_mat_gen_eigen`: returns alpha, beta and v *)
Definition complex_mat_gen_eigen (alpha beta : list C) (v a b : dmat C) : res (list C * list C * dmat C) :=
  let m := d_nrow a in
  if negb (m =? d_ncol a) then Err "matrix must be square"
  else if negb (length alpha =? m) || negb (length beta =? m) then Err "vectors are incompatible"
  else if negb (d_nrow v =? m) || negb (d_ncol v =? m) || negb (d_nrow b =? m) || negb (d_ncol b =? m) then Err "matrices are incompatible"
  else
    m' <- to_i32 m ;;
    let '(info, al, be, _, v') := zggev false true m' (d_data a) m' (d_data b) m' [RtoC 0] 1 (d_data v) m' in
    after info "LAPACK ERROR (zggev): An argument had an illegal value" "LAPACK ERROR (zggev): Iterations failed " (al, be, with_data C v v').
(** complex_mat_gen_eigen.rs:257-313 `complex_mat_gen_eigen_lr`: returns alpha, beta, u and v; the flag for the left
    eigenvectors is C_FALSE (line 287) *)
Definition complex_mat_gen_eigen_lr (alpha beta : list C) (u v a b : dmat C) : res (list C * list C * dmat C * dmat C) :=
  let m := d_nrow a in
  if negb (m =? d_ncol a) then Err "matrix must be square"
  else if negb (length alpha =? m) || negb (length beta =? m) then Err "vectors are incompatible"
  else if negb (d_nrow u =? m) || negb (d_ncol u =? m) || negb (d_nrow v =? m) || negb (d_ncol v =? m) || negb (d_nrow b =? m) || negb (d_ncol b =? m) then Err "matrices are incompatible"
  else
    m' <- to_i32 m ;;
    let '(info, al, be, u', v') := zggev false true m' (d_data a) m' (d_data b) m' (d_data u) m' (d_data v) m' in
    after info "LAPACK ERROR (zggev): An argument had an illegal value" "LAPACK ERROR (zggev): Iterations failed " (al, be, with_data C u u', with_data C v v').

(** c_zgesvd with jobu = jobvt = 'A': m, n, a, lda, ldu, ldvt to info, s, u, vh *)
Variable zgesvd : nat -> nat -> list C -> nat -> nat -> nat -> Z * list R * list C * list C.
(** complex_mat_svd.rs:92-150 `complex_mat_svd`; [s], [u] and [vh] only give the sizes *)
Definition complex_mat_svd (s : list R) (u vh a : dmat C) : res (list R * dmat C * dmat C) :=
  let m := d_nrow a in
  let n := d_ncol a in
  if negb (length s =? Nat.min m n) then Err "[s] must be a min(m,n) vector"
  else if negb (d_nrow u =? m) || negb (d_ncol u =? m) then Err "[u] must be an m-by-m square matrix"
  else if negb (d_nrow vh =? n) || negb (d_ncol vh =? n) then Err "[vh] must be an n-by-n square matrix"
  else
    m' <- to_i32 m ;; n' <- to_i32 n ;;
    let '(info, s', u', vh') := zgesvd m' n' (d_data a) m' m' n' in
    after info "LAPACK ERROR (zgesvd): An argument had an illegal value" "LAPACK ERROR (zgesvd): Algorithm did not converge" (s', with_data C u u', with_data C vh vh').
End ComplexEigen.

Section ComplexInverse.
Local Open Scope C_scope.
(** complex_mat_inverse.rs:24 `ZERO_DETERMINANT_NORM` = 1e-15 *)
Definition ZERO_DETERMINANT_NORM : R := (/ 10 ^ 15)%R.
(** write a list of (i, j, value) in order *)
Definition csets (ai : dmat C) (l : list (nat * nat * C)) : res (dmat C) := for_each l (fun '(i, j, v) ai => d_set ai i j v) ai.
(** complex_mat_inverse.rs:153-208: the LAPACK path for m >= 4 (zgetrf and zgetri), not modelled *)
Variable lapack_inverse : dmat C -> res (C * dmat C).
(** complex_mat_inverse.rs:90-209 `complex_mat_inverse`: the determinant and the new ai; the entries of a are read once up front *)
Definition complex_mat_inverse (ai a : dmat C) : res (C * dmat C) :=
  let m := d_nrow a in
  let n := d_ncol a in
  if negb (m =? n)%nat then Err "matrix must be square"
  else if negb (d_nrow ai =? m)%nat || negb (d_ncol ai =? n)%nat then Err "matrices are incompatible"
  else
  match m with
  | 0%nat => Ok (RtoC 0, ai)
  | 1%nat =>
    det <- d_get a 0 0 ;;
    if Rleb (Cmod det) ZERO_DETERMINANT_NORM then Err "cannot compute inverse due to zero determinant"
    else ai <- d_set ai 0 0 (RtoC 1 / det) ;; Ok (det, ai)
  | 2%nat =>
    a00 <- d_get a 0 0 ;; a01 <- d_get a 0 1 ;;
    a10 <- d_get a 1 0 ;; a11 <- d_get a 1 1 ;;
    let det := a00 * a11 - a01 * a10 in
    if Rleb (Cmod det) ZERO_DETERMINANT_NORM then Err "cannot compute inverse due to zero determinant"
    else
      ai <- csets ai [(0%nat, 0%nat, a11 / det); (0%nat, 1%nat, - a01 / det);
                      (1%nat, 0%nat, - a10 / det); (1%nat, 1%nat, a00 / det)] ;;
      Ok (det, ai)
  | 3%nat =>
    a00 <- d_get a 0 0 ;; a01 <- d_get a 0 1 ;; a02 <- d_get a 0 2 ;;
    a10 <- d_get a 1 0 ;; a11 <- d_get a 1 1 ;; a12 <- d_get a 1 2 ;;
    a20 <- d_get a 2 0 ;; a21 <- d_get a 2 1 ;; a22 <- d_get a 2 2 ;;
    let det :=
        a00 * (a11 * a22 - a12 * a21)
      - a01 * (a10 * a22 - a12 * a20)
      + a02 * (a10 * a21 - a11 * a20) in
    if Rleb (Cmod det) ZERO_DETERMINANT_NORM then Err "cannot compute inverse due to zero determinant"
    else
      ai <- csets ai [
        (0%nat, 0%nat, (a11 * a22 - a12 * a21) / det);
        (0%nat, 1%nat, (a02 * a21 - a01 * a22) / det);
        (0%nat, 2%nat, (a01 * a12 - a02 * a11) / det);
        (1%nat, 0%nat, (a12 * a20 - a10 * a22) / det);
        (1%nat, 1%nat, (a00 * a22 - a02 * a20) / det);
        (1%nat, 2%nat, (a02 * a10 - a00 * a12) / det);
        (2%nat, 0%nat, (a10 * a21 - a11 * a20) / det);
        (2%nat, 1%nat, (a01 * a20 - a00 * a21) / det);
        (2%nat, 2%nat, (a00 * a11 - a01 * a10) / det)] ;;
      Ok (det, ai)
  | _ => lapack_inverse a
  end.
End ComplexInverse.
