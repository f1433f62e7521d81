(** Model of russell_lab: singular value decomposition, pseudo-inverse and eigenvalues of general matrices, over the reals.
    The LAPACK routines are parameters; what is assumed of them is stated in Decomp_Thm.v. *)
From Coq Require Import Reals ZArith.
From Verif Require Import Base RBase Dense_Model LinSol_Model Verify_Model Blas_Model.
Local Open Scope R_scope.

Section Svd.
(** dgesvd with jobu = jobvt = 'A' after the workspace query: m, n, a, lda, ldu, ldvt to info, s, u, vt *)
Variable dgesvd : nat -> nat -> list R -> nat -> nat -> nat -> Z * list R * list R * list R.

(** mat_svd.rs:150-220 `mat_svd`; [s], [u] and [vt] only give the sizes; the contents of `a` afterwards are not modelled *)
Definition mat_svd (s : list R) (u vt a : dmat R) : res (list R * dmat R * dmat R) :=
  let m := d_nrow a in
  let n := d_ncol a in
  let min_mn := if (m <? n)%nat then m else n in
  if negb (length s =? min_mn)%nat then Err "[s] must be a min(m,n) vector"
  else if negb (d_nrow u =? m)%nat || negb (d_ncol u =? m)%nat then Err "[u] must be an m-by-m square matrix"
  else if negb (d_nrow vt =? n)%nat || negb (d_ncol vt =? n)%nat then Err "[vt] must be an n-by-n square matrix"
  else
    m' <- to_i32 m ;; n' <- to_i32 n ;;
    let '(info, s', u', vt') := dgesvd m' n' (d_data a) m' m' n' in
    if (info <? 0)%Z then Err "LAPACK ERROR (dgesvd): An argument had an illegal value"
    else if (0 <? info)%Z then Err "LAPACK ERROR (dgesvd): Algorithm did not converge"
    else Ok (s', with_data R u u', with_data R vt vt').

(** mat_pseudo_inverse.rs:6 *)
Definition SINGLE_VALUE_RCOND : R := / 10 ^ 15.

(** mat_pseudo_inverse.rs:84-122 `mat_pseudo_inverse` *)
Definition mat_pseudo_inverse (ai a : dmat R) : res (dmat R) :=
  let m := d_nrow a in
  let n := d_ncol a in
  if negb (d_nrow ai =? n)%nat || negb (d_ncol ai =? m)%nat then Err "matrices are incompatible"
  else if (m =? 0)%nat && (n =? 0)%nat then Ok ai
  else
    let min_mn := if (m <? n)%nat then m else n in
    ' (s, u, vt) <- mat_svd (repeat 0 min_mn) (d_new R 0 m m) (d_new R 0 n n) a ;;
    sv_largest <- vget s (idamax s) ;;
    let sv_tolerance := SINGLE_VALUE_RCOND * sv_largest in
    for_range 0 n (fun i ai => for_range 0 m (fun j ai =>
      ai <- d_set ai i j 0 ;;
      for_range 0 min_mn (fun k ai =>
        sk <- vget s k ;;
        if Rltb sv_tolerance sk then
          x <- d_get vt k i ;; y <- d_get u j k ;; d_add R Rplus ai i j (x * y / sk)
        else Ok ai) ai) ai) ai.
End Svd.

(* ------------------------------------------------------------------ *)
(** * Eigenvectors from the compact form of dgeev *)

(** dgeev_data.rs:37-44: row i of a conjugate pair *)
Definition pair_row (n j : nat) (v : list R) (i : nat) (o : list R * list R) : res (list R * list R) :=
  let '(v_real, v_imag) := o in
  let p := (i + j * n)%nat in
  let q := (i + (j + 1) * n)%nat in
  vp <- vget v p ;; vq <- vget v q ;;
  v_real <- vset v_real p vp ;; v_imag <- vset v_imag p vq ;;
  v_real <- vset v_real q vp ;; v_imag <- vset v_imag q (- vq) ;;
  Ok (v_real, v_imag).
(** dgeev_data.rs:49-53: row i of a real eigenvector *)
Definition real_row (n j : nat) (v : list R) (i : nat) (o : list R * list R) : res (list R * list R) :=
  let '(v_real, v_imag) := o in
  let p := (i + j * n)%nat in
  vp <- vget v p ;;
  v_real <- vset v_real p vp ;; v_imag <- vset v_imag p 0 ;;
  Ok (v_real, v_imag).

(** dgeev_data.rs:29-58: `while j < n`; every turn increases j, so that n - j + 1 turns suffice *)
Fixpoint geev_loop {O} (n : nat) (pair real : nat -> nat -> O -> res O) (w_imag : list R) (fuel j : nat) (o : O) : res O :=
  match fuel with
  | O => Panic
  | S fuel =>
    if (j <? n)%nat then
      w <- vget w_imag j ;;
      if Rltb 0 (Rabs w) then
        n2 <- usub n 2 ;;
        if (n2 <? j)%nat then Err "last eigenvalue cannot be complex"
        else o <- for_range 0 n (pair j) o ;; geev_loop n pair real w_imag fuel (j + 2) o
      else o <- for_range 0 n (real j) o ;; geev_loop n pair real w_imag fuel (j + 1) o
    else Ok o
  end.

(** dgeev_data.rs:17-60 `dgeev_data` *)
Definition dgeev_data (v_real v_imag w_imag v : list R) : res (list R * list R) :=
  let n := length w_imag in
  let nn := (n * n)%nat in
  if negb (length v_real =? nn)%nat || negb (length v_imag =? nn)%nat || negb (length v =? nn)%nat then Err "arrays have wrong dimensions"
  else geev_loop n (fun j => pair_row n j v) (fun j => real_row n j v) w_imag (n + 1) 0 (v_real, v_imag).

(** dgeev_data.rs:78-146 `dgeev_data_lr`; the writes to the arrays of the left and of the right vectors are interleaved in
    the code and grouped here (four separate arrays) *)
Definition both {A B} (f : nat -> nat -> A -> res A) (g : nat -> nat -> B -> res B) (j i : nat) (o : A * B) : res (A * B) :=
  let '(a, b) := o in a <- f j i a ;; b <- g j i b ;; Ok (a, b).
Definition dgeev_data_lr (vl_real vl_imag vr_real vr_imag w_imag vl vr : list R) : res ((list R * list R) * (list R * list R)) :=
  let n := length w_imag in
  let nn := (n * n)%nat in
  if negb (length vl_real =? nn)%nat || negb (length vl_imag =? nn)%nat || negb (length vr_real =? nn)%nat || negb (length vr_imag =? nn)%nat
     || negb (length vl =? nn)%nat || negb (length vr =? nn)%nat then Err "arrays have wrong dimensions"
  else geev_loop n (both (fun j => pair_row n j vl) (fun j => pair_row n j vr)) (both (fun j => real_row n j vl) (fun j => real_row n j vr))
         w_imag (n + 1) 0 ((vl_real, vl_imag), (vr_real, vr_imag)).

Section Eigen.
(** dgeev: calc_vl, calc_vr, n, a, lda, ldvl, ldvr to info, wr, wi, vl, vr *)
Variable dgeev : bool -> bool -> nat -> list R -> nat -> nat -> nat -> Z * list R * list R * list R * list R.

(** mat_eigen.rs:125-183 `mat_eigen`: eigenvalues and right eigenvectors; the first two arguments only give the sizes *)
Definition mat_eigen (l_real l_imag : list R) (v_real v_imag a : dmat R) : res (list R * list R * dmat R * dmat R) :=
  let m := d_nrow a in
  if negb (m =? d_ncol a)%nat then Err "matrix must be square"
  else if negb (length l_real =? m)%nat || negb (length l_imag =? m)%nat then Err "vectors are incompatible"
  else if negb (d_nrow v_real =? m)%nat || negb (d_ncol v_real =? m)%nat || negb (d_nrow v_imag =? m)%nat || negb (d_ncol v_imag =? m)%nat then Err "matrices are incompatible"
  else
    m' <- to_i32 m ;;
    let '(info, wr, wi, _, v) := dgeev false true m' (d_data a) m' 1%nat m' in
    if (info <? 0)%Z then Err "LAPACK ERROR (dgeev): An argument had an illegal value"
    else if (0 <? info)%Z then Err "LAPACK ERROR (dgeev): The QR algorithm failed to compute all the eigenvalues, and no eigenvectors have been computed"
    else ' (x, y) <- dgeev_data (d_data v_real) (d_data v_imag) wi v ;; Ok (wr, wi, with_data R v_real x, with_data R v_imag y).

(** mat_eigen.rs:295-372 `mat_eigen_lr`: eigenvalues, left and right eigenvectors *)
Definition mat_eigen_lr (l_real l_imag : list R) (u_real u_imag v_real v_imag a : dmat R) : res (list R * list R * dmat R * dmat R * dmat R * dmat R) :=
  let m := d_nrow a in
  let ok (x : dmat R) := (d_nrow x =? m)%nat && (d_ncol x =? m)%nat in
  if negb (m =? d_ncol a)%nat then Err "matrix must be square"
  else if negb (length l_real =? m)%nat || negb (length l_imag =? m)%nat then Err "vectors are incompatible"
  else if negb (ok u_real && ok u_imag && ok v_real && ok v_imag) then Err "matrices are incompatible"
  else
    m' <- to_i32 m ;;
    let '(info, wr, wi, u, v) := dgeev true true m' (d_data a) m' m' m' in
    if (info <? 0)%Z then Err "LAPACK ERROR (dgeev): An argument had an illegal value"
    else if (0 <? info)%Z then Err "LAPACK ERROR (dgeev): The QR algorithm failed to compute all the eigenvalues, and no eigenvectors have been computed"
    else
      ' ((a1, b1), (a2, b2)) <- dgeev_data_lr (d_data u_real) (d_data u_imag) (d_data v_real) (d_data v_imag) wi u v ;;
      Ok (wr, wi, with_data R u_real a1, with_data R u_imag b1, with_data R v_real a2, with_data R v_imag b2).
End Eigen.
