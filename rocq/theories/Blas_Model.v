(** Model of the BLAS wrappers of russell_lab (matrix/, matvec/), for real and complex numbers at once.
    The BLAS routines act on raw column-major arrays with a leading dimension, as documented: an illegal argument is
    [Panic] (XERBLA; the reference implementation stops the program, others print a message and return), and so is an
    access outside of an array. The order of the additions is one of the possible ones. The number type is arbitrary. *)
From Verif Require Import Base Dense_Model LinSol_Model.

Inductive trans := NoTrans | Trans | ConjTrans.

Section Blas.
Variable T : Type.
Variable zero : T.
Variables add mul : T -> T -> T.
Variables conj re : T -> T.

(** russell_lab/src/internal/to_i32.rs:7-9 *)
Definition to_i32 (n : nat) : res nat := if fits_i32 n then Ok n else Panic.

(** sum of f(0), ..., f(k-1) *)
Definition dot (k : nat) (f : nat -> res T) : res T := for_range 0 k (fun l s => x <- f l ;; Ok (add s x)) zero.
(** entry (i, j) of op(a) *)
Definition opget (tr : trans) (a : list T) (ld i j : nat) : res T :=
  match tr with
  | NoTrans => vget a (i + j * ld)
  | Trans => vget a (j + i * ld)
  | ConjTrans => x <- vget a (j + i * ld) ;; Ok (conj x)
  end.

(** cblas_dgemm, cblas_zgemm with CblasColMajor: c := alpha op(a) op(b) + beta c *)
Definition gemm (ta tb : trans) (m n k : nat) (alpha : T) (a : list T) (lda : nat) (b : list T) (ldb : nat) (beta : T) (c : list T) (ldc : nat) : res (list T) :=
  _ <- assert_ (Nat.max 1 (match ta with NoTrans => m | _ => k end) <=? lda) ;;
  _ <- assert_ (Nat.max 1 (match tb with NoTrans => k | _ => n end) <=? ldb) ;;
  _ <- assert_ (Nat.max 1 m <=? ldc) ;;
  for_range 0 n (fun j c => for_range 0 m (fun i c =>
    s <- dot k (fun l => x <- opget ta a lda i l ;; y <- opget tb b ldb l j ;; Ok (mul x y)) ;;
    z <- vget c (i + j * ldc) ;;
    vset c (i + j * ldc) (add (mul alpha s) (mul beta z))) c) c.

(** cblas_dgemv, cblas_zgemv with CblasColMajor and unit strides: y := alpha op(a) x + beta y, a is m by n *)
Definition gemv (ta : trans) (m n : nat) (alpha : T) (a : list T) (lda : nat) (x : list T) (beta : T) (y : list T) : res (list T) :=
  _ <- assert_ (Nat.max 1 m <=? lda) ;;
  if (m =? 0) || (n =? 0) then Ok y
  else
    let '(lenx, leny) := match ta with NoTrans => (n, m) | _ => (m, n) end in
    for_range 0 leny (fun i y =>
      s <- dot lenx (fun l => p <- opget ta a lda i l ;; q <- vget x l ;; Ok (mul p q)) ;;
      z <- vget y i ;;
      vset y i (add (mul alpha s) (mul beta z))) y.

(** cblas_dger with CblasColMajor and unit strides: a := alpha x y^T + a *)
Definition ger (m n : nat) (alpha : T) (x y : list T) (a : list T) (lda : nat) : res (list T) :=
  _ <- assert_ (Nat.max 1 m <=? lda) ;;
  for_range 0 n (fun j a => for_range 0 m (fun i a =>
    p <- vget x i ;; q <- vget y j ;;
    z <- vget a (i + j * lda) ;;
    vset a (i + j * lda) (add (mul alpha (mul p q)) z)) a) a.

(** the rows of column j in the triangle *)
Definition tri_lo (upper : bool) (j : nat) : nat := if upper then 0 else j.
Definition tri_hi (upper : bool) (n j : nat) : nat := if upper then j + 1 else n.

(** cblas_dsyrk, cblas_zsyrk with CblasColMajor: c := alpha op(a) op(a)^T + beta c, one triangle of c; op(a) is n by k *)
Definition syrk (upper : bool) (tr : trans) (n k : nat) (alpha : T) (a : list T) (lda : nat) (beta : T) (c : list T) (ldc : nat) : res (list T) :=
  _ <- assert_ (Nat.max 1 (match tr with NoTrans => n | _ => k end) <=? lda) ;;
  _ <- assert_ (Nat.max 1 n <=? ldc) ;;
  for_range 0 n (fun j c => for_range (tri_lo upper j) (tri_hi upper n j) (fun i c =>
    s <- dot k (fun l => x <- opget tr a lda i l ;; y <- opget tr a lda j l ;; Ok (mul x y)) ;;
    z <- vget c (i + j * ldc) ;;
    vset c (i + j * ldc) (add (mul alpha s) (mul beta z))) c) c.

(** cblas_zherk with CblasColMajor: c := alpha op(a) op(a)^H + beta c, one triangle of c, real alpha and beta; the
    imaginary parts of the diagonal are not read (zherk's early return for beta = 1 and nothing to add is left out) *)
Definition herk (upper : bool) (tr : trans) (n k : nat) (alpha : T) (a : list T) (lda : nat) (beta : T) (c : list T) (ldc : nat) : res (list T) :=
  _ <- assert_ (Nat.max 1 (match tr with NoTrans => n | _ => k end) <=? lda) ;;
  _ <- assert_ (Nat.max 1 n <=? ldc) ;;
  for_range 0 n (fun j c => for_range (tri_lo upper j) (tri_hi upper n j) (fun i c =>
    s <- dot k (fun l => x <- opget tr a lda i l ;; y <- opget tr a lda j l ;; Ok (mul x (conj y))) ;;
    z <- vget c (i + j * ldc) ;;
    vset c (i + j * ldc) (add (mul alpha s) (mul beta (if i =? j then re z else z)))) c) c.

Definition with_data (a : dmat T) (d : list T) : dmat T := mkD (d_nrow a) (d_ncol a) d.
Definition v_fill (v : list T) (x : T) : list T := map (fun _ => x) v.

(** mat_mat_mul.rs:62-99 `mat_mat_mul`; complex_mat_mat_mul.rs:66-110 *)
Definition mat_mat_mul (c : dmat T) (alpha : T) (a b : dmat T) (beta : T) : res (dmat T) :=
  let m := d_nrow c in
  let n := d_ncol c in
  let k := d_ncol a in
  if negb (d_nrow a =? m) || negb (d_nrow b =? k) || negb (d_ncol b =? n) then Err "matrices are incompatible"
  else if (m =? 0) || (n =? 0) then Ok c
  else if k =? 0 then Ok (d_fill T c zero)
  else
    m' <- to_i32 m ;; n' <- to_i32 n ;; k' <- to_i32 k ;;
    let lda := m' in let ldb := k' in
    d <- gemm NoTrans NoTrans m' n' k' alpha (d_data a) lda (d_data b) ldb beta (d_data c) m' ;;
    Ok (with_data c d).

(** mat_t_mat_mul.rs:60-97 `mat_t_mat_mul`; complex_mat_t_mat_mul.rs:66-110 *)
Definition mat_t_mat_mul (c : dmat T) (alpha : T) (a b : dmat T) (beta : T) : res (dmat T) :=
  let m := d_nrow c in
  let n := d_ncol c in
  let k := d_nrow a in
  if negb (d_ncol a =? m) || negb (d_nrow b =? k) || negb (d_ncol b =? n) then Err "matrices are incompatible"
  else if (m =? 0) || (n =? 0) then Ok c
  else if k =? 0 then Ok (d_fill T c zero)
  else
    m' <- to_i32 m ;; n' <- to_i32 n ;; k' <- to_i32 k ;;
    let lda := k' in let ldb := k' in
    d <- gemm Trans NoTrans m' n' k' alpha (d_data a) lda (d_data b) ldb beta (d_data c) m' ;;
    Ok (with_data c d).

(** mat_vec_mul.rs:63-98 `mat_vec_mul`; complex_mat_vec_mul.rs:64-104 *)
Definition mat_vec_mul (v : list T) (alpha : T) (a : dmat T) (u : list T) : res (list T) :=
  let m := length v in
  let n := length u in
  if negb (m =? d_nrow a) || negb (n =? d_ncol a) then Err "matrix and vectors are incompatible"
  else if m =? 0 then Ok v
  else if n =? 0 then Ok (v_fill v zero)
  else
    m' <- to_i32 m ;; n' <- to_i32 n ;;
    gemv NoTrans m' n' alpha (d_data a) m' u zero v.

(** mat_vec_mul_update.rs:63-97 `mat_vec_mul_update` *)
Definition mat_vec_mul_update (v : list T) (alpha : T) (a : dmat T) (u : list T) (beta : T) : res (list T) :=
  let m := length v in
  let n := length u in
  if negb (m =? d_nrow a) || negb (n =? d_ncol a) then Err "matrix and vectors are incompatible"
  else if m =? 0 then Ok v
  else if n =? 0 then Ok (v_fill v zero)
  else
    m' <- to_i32 m ;; n' <- to_i32 n ;;
    gemv NoTrans m' n' alpha (d_data a) m' u beta v.

(** vec_mat_mul.rs:69-104 `vec_mat_mul`; complex_vec_mat_mul.rs:71-111 *)
Definition vec_mat_mul (v : list T) (alpha : T) (u : list T) (a : dmat T) : res (list T) :=
  let n := length v in
  let m := length u in
  if negb (m =? d_nrow a) || negb (n =? d_ncol a) then Err "matrix and vectors are incompatible"
  else if n =? 0 then Ok v
  else if m =? 0 then Ok (v_fill v zero)
  else
    m' <- to_i32 m ;; n' <- to_i32 n ;;
    gemv Trans m' n' alpha (d_data a) m' u zero v.

(** vec_outer.rs:55-80 `vec_outer` *)
Definition vec_outer (a : dmat T) (alpha : T) (u v : list T) : res (dmat T) :=
  let m := length u in
  let n := length v in
  if negb (d_nrow a =? m) || negb (d_ncol a =? n) then Err "matrix and vectors are incompatible"
  else
    m' <- to_i32 m ;; n' <- to_i32 n ;;
    let a := d_fill T a zero in
    d <- ger m' n' alpha u v (d_data a) m' ;;
    Ok (with_data a d).

(** vec_outer_update.rs:59-83 `vec_outer_update` *)
Definition vec_outer_update (a : dmat T) (alpha : T) (u v : list T) : res (dmat T) :=
  let m := length u in
  let n := length v in
  if negb (d_nrow a =? m) || negb (d_ncol a =? n) then Err "matrix and vectors are incompatible"
  else
    m' <- to_i32 m ;; n' <- to_i32 n ;;
    d <- ger m' n' alpha u v (d_data a) m' ;;
    Ok (with_data a d).

(** mat_sym_rank_op.rs:98-117, complex_mat_sym_rank_op.rs:102-121, complex_mat_herm_rank_op.rs:100-119: (lda, k, trans) *)
Definition rank_args (c a : dmat T) (second_case : bool) (second : trans) : res (nat * nat * trans) :=
  let n := d_ncol c in
  if negb (d_nrow c =? n) then Err "[c] matrix must be square"
  else
    let row := d_nrow a in
    let col := d_ncol a in
    if negb second_case then
      if negb (row =? n) then Err "[a] matrix is incompatible" else Ok (row, col, NoTrans)
    else
      if negb (col =? n) then Err "[a] matrix is incompatible" else Ok (row, row, second).

(** mat_sym_rank_op.rs:90-138 `mat_sym_rank_op`; complex_mat_sym_rank_op.rs:94-142 *)
Definition mat_sym_rank_op (c a : dmat T) (alpha beta : T) (upper second_case : bool) : res (dmat T) :=
  ' (lda, k, tr) <- rank_args c a second_case Trans ;;
  n' <- to_i32 (d_ncol c) ;; k' <- to_i32 k ;; lda' <- to_i32 lda ;;
  d <- syrk upper tr n' k' alpha (d_data a) lda' beta (d_data c) n' ;;
  Ok (with_data c d).

(** complex_mat_herm_rank_op.rs:92-140 `complex_mat_herm_rank_op` *)
Definition complex_mat_herm_rank_op (c a : dmat T) (alpha beta : T) (upper second_case : bool) : res (dmat T) :=
  ' (lda, k, tr) <- rank_args c a second_case ConjTrans ;;
  n' <- to_i32 (d_ncol c) ;; k' <- to_i32 k ;; lda' <- to_i32 lda ;;
  d <- herk upper tr n' k' alpha (d_data a) lda' beta (d_data c) n' ;;
  Ok (with_data c d).

(** mat_sum_cols.rs:51-63 `mat_sum_cols` *)
Definition mat_sum_cols (v : list T) (a : dmat T) : res (list T) :=
  if negb (length v =? d_nrow a) then Err "vector is incompatible"
  else for_range 0 (d_nrow a) (fun i v =>
         v <- vset v i zero ;;
         for_range 0 (d_ncol a) (fun j v => s <- vget v i ;; x <- d_get a i j ;; vset v i (add s x)) v) v.

(** mat_sum_rows.rs:53-65 `mat_sum_rows` *)
Definition mat_sum_rows (v : list T) (a : dmat T) : res (list T) :=
  if negb (length v =? d_ncol a) then Err "vector is incompatible"
  else for_range 0 (d_ncol a) (fun j v =>
         v <- vset v j zero ;;
         for_range 0 (d_nrow a) (fun i v => s <- vget v j ;; x <- d_get a i j ;; vset v j (add s x)) v) v.
End Blas.
