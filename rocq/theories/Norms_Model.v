(** Model of the norms, scaled measures and elementwise operations on vectors and matrices of russell_lab.
    f64 is read as R; the functions for real and for complex numbers are modelled once, over a type of entries
    with a modulus. *)
From Coq Require Import Reals.
From Coquelicot Require Import Complex.
From Verif Require Import Base RBase Dense_Model Blas_Model Verify_Model LabVec_Model.
Local Open Scope string_scope.
Local Open Scope nat_scope.

Local Notation C := Complex.C.

(** base/enums.rs:5-74 `Norm` *)
Inductive norm_kind := Euc | Fro | Inf | Max | One.
(** internal/constants.rs:15-19 (and c_code/constants.h:13-17): `kind as i32` *)
Definition norm_code (k : norm_kind) : nat := match k with Euc => 0 | Fro => 1 | Inf => 2 | Max => 3 | One => 4 end.

Section Entries.
Variable T : Type.
Variable zero : T.
Variables add sub mul : T -> T -> T.
(** `f64::abs`, `Complex64::norm` *)
Variable mag : T -> R.

(* ------------------------------------------------------------------ *)
(** * Norms of matrices *)

(** a sum and the running maximum of LAPACK's dlange, from zero *)
Definition rsum (n : nat) (f : nat -> res R) : res R := for_range 0 n (fun i s => x <- f i ;; Ok (s + x)%R) 0%R.
Definition rmax (n : nat) (f : nat -> res R) : res R := for_range 0 n (fun i s => x <- f i ;; Ok (if Rltb s x then x else s)) 0%R.

(** LAPACK dlange and zlange: the letter, m, n, a, lda and the length of the work array, which is written for "I" only *)
Definition lange (letter : string) (m n : nat) (a : list T) (lda work : nat) : res R :=
  let at_ i j := x <- vget a (i + j * lda) ;; Ok (mag x) in
  if String.eqb letter "M" then rmax n (fun j => rmax m (fun i => at_ i j))
  else if String.eqb letter "O" then rmax n (fun j => rsum m (fun i => at_ i j))
  else if String.eqb letter "I" then _ <- assert_ (m <=? work) ;; rmax m (fun i => rsum n (fun j => at_ i j))
  else if String.eqb letter "F" then s <- rsum n (fun j => rsum m (fun i => x <- at_ i j ;; Ok (x * x)%R)) ;; Ok (sqrt s)
  else Panic.
(** c_code/interface_blas.c `c_dlange` and `c_zlange`: the letter of a code *)
Definition norm_letter (code : nat) : string :=
  if ((code =? 0) || (code =? 1))%nat then "F" else if (code =? 2)%nat then "I" else if (code =? 3)%nat then "M" else "O".
(** mat_norm.rs:42-53 `mat_norm`, complex_mat_norm.rs:49-61 `complex_mat_norm` *)
Definition mat_norm (a : dmat T) (kind : norm_kind) : res R :=
  let m := d_nrow a in
  let n := d_ncol a in
  if ((m =? 0) || (n =? 0))%nat then Ok 0%R
  else
    m' <- to_i32 m ;; n' <- to_i32 n ;;
    let work := match kind with Inf => m | _ => 0 end in
    lange (norm_letter (norm_code kind)) m' n' (d_data a) m' work.

(* ------------------------------------------------------------------ *)
(** * Elementwise operations *)

(** vec_copy.rs:36-46 `vec_copy`, complex_vec_copy.rs:36-46 *)
Definition vec_copy (v u : list T) : res (list T) :=
  let n := length v in
  if negb (length u =? n)%nat then Err "vectors are incompatible"
  else n' <- to_i32 n ;; Ok (firstn n' u).
(** vec_scale.rs:34-39 `vec_scale`, complex_vec_scale.rs:35-40 *)
Definition vec_scale (v : list T) (alpha : T) : res (list T) :=
  n' <- to_i32 (length v) ;; Ok (blas_scal T mul alpha (firstn n' v)).
(** vec_update.rs:38-48 `vec_update`, complex_vec_update.rs:36-46 *)
Definition vec_update (v : list T) (alpha : T) (u : list T) : res (list T) :=
  let n := length v in
  if negb (length u =? n)%nat then Err "vectors are incompatible"
  else n' <- to_i32 n ;; Ok (blas_axpy T add mul alpha (firstn n' u) (firstn n' v)).
(** vec_add.rs:32-34 `vec_add`, vec_plus.rs:30-32, vec_minus.rs:30-32 and the complex versions *)
Definition vec_add (w : list T) (alpha : T) (u : list T) (beta : T) (v : list T) : res (list T) := array_plus_opx T add mul w alpha u beta v.
Definition vec_plus (w u v : list T) : res (list T) := array_op T add w u v.
Definition vec_minus (w u v : list T) : res (list T) := array_op T sub w u v.

(** mat_copy.rs:41-51 `mat_copy`, complex_mat_copy.rs:41-51 *)
Definition mat_copy (b a : dmat T) : res (dmat T) :=
  let m := d_nrow b in let n := d_ncol b in
  if (negb (d_nrow a =? m) || negb (d_ncol a =? n))%nat then Err "matrices are incompatible"
  else mn <- to_i32 (m * n) ;; Ok (with_data T b (firstn mn (d_data a) ++ skipn mn (d_data b))).
(** mat_scale.rs:39-45 `mat_scale`, complex_mat_scale.rs:43-49 *)
Definition mat_scale (a : dmat T) (alpha : T) : res (dmat T) :=
  mn <- to_i32 (d_nrow a * d_ncol a) ;; Ok (with_data T a (blas_scal T mul alpha (firstn mn (d_data a)) ++ skipn mn (d_data a))).
(** mat_update.rs:43-53 `mat_update`, complex_mat_update.rs:41-51 *)
Definition mat_update (b : dmat T) (alpha : T) (a : dmat T) : res (dmat T) :=
  let m := d_nrow b in let n := d_ncol b in
  if (negb (d_nrow a =? m) || negb (d_ncol a =? n))%nat then Err "matrices are incompatible"
  else mn <- to_i32 (m * n) ;; Ok (with_data T b (blas_axpy T add mul alpha (firstn mn (d_data a)) (firstn mn (d_data b)) ++ skipn mn (d_data b))).
(** the size check of mat_add, mat_plus and mat_minus *)
Definition mat_op (op : list T -> list T -> list T -> res (list T)) (c a b : dmat T) : res (dmat T) :=
  let m := d_nrow c in let n := d_ncol c in
  if (negb (d_nrow a =? m) || negb (d_ncol a =? n) || negb (d_nrow b =? m) || negb (d_ncol b =? n))%nat then Err "matrices are incompatible"
  else d <- op (d_data c) (d_data a) (d_data b) ;; Ok (with_data T c d).
(** mat_add.rs:36-42 `mat_add`, complex_mat_add.rs:36-48 *)
Definition mat_add (c : dmat T) (alpha : T) (a : dmat T) (beta : T) (b : dmat T) : res (dmat T) :=
  mat_op (fun c a b => array_plus_opx T add mul c alpha a beta b) c a b.
(** mat_plus.rs:34-40 `mat_plus`, complex_mat_plus.rs:34-40 *)
Definition mat_plus (c a b : dmat T) : res (dmat T) := mat_op (array_op T add) c a b.
(** mat_minus.rs:34-40 `mat_minus`, complex_mat_minus.rs:34-40 *)
Definition mat_minus (c a b : dmat T) : res (dmat T) := mat_op (array_op T sub) c a b.

(** mat_max_abs_diff.rs:37-54 `mat_max_abs_diff` *)
Definition mat_max_abs_diff (a b : dmat T) : res (nat * nat * R) :=
  let m := d_nrow a in let n := d_ncol a in
  if (negb (d_nrow b =? m) || negb (d_ncol b =? n))%nat then Err "matrices are incompatible"
  else
    for_range 0 m (fun i s => for_range 0 n (fun j '(i_found, j_found, max_abs_diff) =>
      x <- d_get a i j ;; y <- d_get b i j ;;
      let abs_diff := mag (sub x y) in
      Ok (if Rltb max_abs_diff abs_diff then (i, j, abs_diff) else (i_found, j_found, max_abs_diff))) s) (0%nat, 0%nat, 0%R).
End Entries.

(* ------------------------------------------------------------------ *)
(** * Norms of vectors *)
Section Vec.
Local Open Scope R_scope.

(** BLAS dnrm2 and dznrm2 (of the moduli), dasum *)
Definition blas_nrm2 (v : list R) : R := sqrt (fold_left (fun s x => s + x * x) v 0).
Definition blas_asum (v : list R) : R := fold_left (fun s x => s + Rabs x) v 0.

(** vec_norm.rs:36-51 `vec_norm` *)
Definition vec_norm (v : list R) (kind : norm_kind) : res R :=
  n <- to_i32 (length v) ;;
  if (n =? 0)%nat then Ok 0
  else
    match kind with
    | Euc | Fro => Ok (blas_nrm2 v)
    | Inf | Max => x <- vget v (idamax v) ;; Ok (Rabs x)
    | One => Ok (blas_asum v)
    end.
(** vec_norm_chunk.rs:45-63 `vec_norm_chunk` *)
Definition vec_norm_chunk (v : list R) (kind : norm_kind) (start stop : nat) : res R :=
  if (length v =? 0)%nat then Ok 0
  else
    _ <- assert_ (start <? stop)%nat ;;
    _ <- assert_ (stop <=? length v)%nat ;;
    let slice := firstn (stop - start) (skipn start v) in
    n <- to_i32 (length slice) ;;
    match kind with
    | Euc | Fro => Ok (blas_nrm2 slice)
    | Inf | Max => x <- vget slice (idamax slice) ;; Ok (Rabs x)
    | One => Ok (blas_asum slice)
    end.
(** complex_vec_norm.rs:48-69 `complex_vec_norm` *)
Definition complex_vec_norm (v : list C) (kind : norm_kind) : res R :=
  n <- to_i32 (length v) ;;
  if (n =? 0)%nat then Ok 0
  else
    match kind with
    | Euc | Fro => Ok (blas_nrm2 (map Cmod v))
    | Inf | Max => for_range 0 (length v) (fun i max => z <- vget v i ;; Ok (if Rltb max (Cmod z) then Cmod z else max)) 0
    | One => Ok (fold_left (fun acc z => acc + Cmod z) v 0)
    end.
(** vec_norm_diff.rs:29-38 `vec_norm_diff` *)
Definition vec_norm_diff (u v : list R) (kind : norm_kind) : res R :=
  let n := length v in
  _ <- assert_ (length u =? n)%nat ;;
  if (n =? 0)%nat then Ok 0
  else diff <- unwrap (vec_minus R Rminus (repeat 0 n) u v) ;; vec_norm diff kind.

(** f64::MIN *)
Definition F64_MIN : R := - (2 ^ 1024 - 2 ^ 971).
(** vec_max_scaled.rs:26-37 `vec_max_scaled` *)
Definition vec_max_scaled (v v0 : list R) (one : R) : res R :=
  let m := length v in
  _ <- assert_ (length v0 =? m)%nat ;;
  if (m =? 0)%nat then Ok 0
  else for_range 0 m (fun i s => x <- vget v i ;; x0 <- vget v0 i ;; Ok (Rmax s (Rabs x / (one + Rabs x0)))) F64_MIN.
(** vec_max_scaled_diff.rs:14-26 `vec_max_scaled_diff` *)
Definition vec_max_scaled_diff (u v s : list R) : res R :=
  let n := length v in
  _ <- assert_ (length u =? n)%nat ;;
  _ <- assert_ (length s =? n)%nat ;;
  if (n =? 0)%nat then Ok 0
  else for_range 0 n (fun i r => x <- vget u i ;; y <- vget v i ;; z <- vget s i ;; Ok (Rmax r (Rabs (x - y) / (1 + Rabs z)))) F64_MIN.
(** vec_rms_scaled.rs:30-42 `vec_rms_scaled` *)
Definition vec_rms_scaled (v v0 : list R) (abs_tol rel_tol : R) : res R :=
  let m := length v in
  _ <- assert_ (length v0 =? m)%nat ;;
  if (m =? 0)%nat then Ok 0
  else
    sum <- for_range 0 m (fun i s =>
      x <- vget v i ;; x0 <- vget v0 i ;;
      let den := abs_tol + rel_tol * Rabs x0 in Ok (s + x * x / (den * den))) 0 ;;
    Ok (sqrt (sum / INR m)).
(** vec_rms_scaled_diff.rs:36-49 `vec_rms_scaled_diff` *)
Definition vec_rms_scaled_diff (u v : list R) (abs_tol rel_tol : R) : res R :=
  let n := length v in
  _ <- assert_ (length u =? n)%nat ;;
  if (n =? 0)%nat then Ok 0
  else
    sum <- for_range 0 n (fun i s =>
      x <- vget u i ;; y <- vget v i ;;
      let sci := abs_tol + rel_tol * Rmax (Rabs x) (Rabs y) in
      let diff := x - y in Ok (s + diff * diff / (sci * sci))) 0 ;;
    Ok (sqrt (sum / INR n)).

(* ------------------------------------------------------------------ *)
(** * Real and imaginary parts *)

(** complex_vec_zip.rs:28-38 `complex_vec_zip` *)
Definition complex_vec_zip (v : list C) (real imag : list R) : res (list C) :=
  let dim := length v in
  if (negb (length real =? dim) || negb (length imag =? dim))%nat then Err "vectors are incompatible"
  else for_range 0 dim (fun i v =>
    x <- vget real i ;; z <- vget v i ;; v <- vset v i (x, snd z) ;;
    y <- vget imag i ;; z <- vget v i ;; vset v i (fst z, y)) v.
(** complex_vec_unzip.rs:34-44 `complex_vec_unzip`: returns real and imag *)
Definition complex_vec_unzip (real imag : list R) (v : list C) : res (list R * list R) :=
  let dim := length v in
  if (negb (length real =? dim) || negb (length imag =? dim))%nat then Err "vectors are incompatible"
  else for_range 0 dim (fun i '(real, imag) =>
    z <- vget v i ;; real <- vset real i (fst z) ;; imag <- vset imag i (snd z) ;; Ok (real, imag)) (real, imag).
(** complex_mat_zip.rs:25-38 `complex_mat_zip` *)
Definition complex_mat_zip (a : dmat C) (real imag : dmat R) : res (dmat C) :=
  let nrow := d_nrow a in let ncol := d_ncol a in
  if (negb (d_nrow real =? nrow) || negb (d_ncol real =? ncol) || negb (d_nrow imag =? nrow) || negb (d_ncol imag =? ncol))%nat then Err "matrices are incompatible"
  else for_range 0 nrow (fun i a => for_range 0 ncol (fun j a => x <- d_get real i j ;; y <- d_get imag i j ;; d_set a i j (x, y)) a) a.
(** complex_mat_unzip.rs:35-49 `complex_mat_unzip`: returns real and imag *)
Definition complex_mat_unzip (real imag : dmat R) (a : dmat C) : res (dmat R * dmat R) :=
  let nrow := d_nrow a in let ncol := d_ncol a in
  if (negb (d_nrow real =? nrow) || negb (d_ncol real =? ncol) || negb (d_nrow imag =? nrow) || negb (d_ncol imag =? ncol))%nat then Err "matrices are incompatible"
  else for_range 0 nrow (fun i s => for_range 0 ncol (fun j '(real, imag) =>
    z <- d_get a i j ;; real <- d_set real i j (fst z) ;; imag <- d_set imag i j (snd z) ;; Ok (real, imag)) s) (real, imag).
End Vec.
