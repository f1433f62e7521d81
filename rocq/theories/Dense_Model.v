(** Model of russell_lab/src/matrix/num_matrix.rs (NumMatrix<T>).
    Numbers are an arbitrary type with arbitrary operations: no law is assumed. *)
From Verif Require Import Base.

Section Dense.
Variable T : Type.
Variables zero one : T.
Variables add mul : T -> T -> T.

(** num_matrix.rs:165-174 `struct NumMatrix { nrow, ncol, data }`, col-major data *)
Record dmat := mkD { d_nrow : nat; d_ncol : nat; d_data : list T }.

(** num_matrix.rs:194-200 `new` *)
Definition d_new (nrow ncol : nat) : dmat := mkD nrow ncol (repeat zero (nrow * ncol)).

(** num_matrix.rs:216-227 `identity` *)
Definition d_identity (m : nat) : res dmat :=
  data <- for_range 0 m (fun i data => vset data (i + i * m) one) (repeat zero (m * m)) ;;
  Ok (mkD m m data).

(** num_matrix.rs:242-248 `filled` *)
Definition d_filled (m n : nat) (v : T) : dmat := mkD m n (repeat v (m * n)).

(** num_matrix.rs:268-277 `initialized`. The closure is modelled as a pure function. *)
Definition d_initialized (nrow ncol : nat) (f : nat -> nat -> T) : dmat :=
  mkD nrow ncol (map (fun p => f (p mod nrow) (p / nrow)) (seq 0 (nrow * ncol))).

(** num_matrix.rs:339-359 `from`. The generic `AsArray2D` argument is its `size()`
    and its `at` function (the conversion `into()` is part of [at]). *)
Definition d_from (nrow0 ncol : nat) (at_ : nat -> nat -> T) : res dmat :=
  let nrow := if ncol =? 0 then 0 else nrow0 in
  data <- for_range 0 nrow (fun i data =>
            for_range 0 ncol (fun j data => vset data (i + j * nrow) (at_ i j)) data)
          (repeat zero (nrow * ncol)) ;;
  Ok (mkD nrow ncol data).

(** num_matrix.rs:392-415 `from_lower` *)
Definition d_from_lower (nrow0 ncol : nat) (at_ : nat -> nat -> T) : res dmat :=
  let nrow := if ncol =? 0 then 0 else nrow0 in
  if negb (nrow =? ncol) then Err "the matrix must be square to set lower triangle"
  else
    data <- for_range 0 nrow (fun i data =>
              for_range 0 (i + 1) (fun j data => vset data (i + j * nrow) (at_ i j)) data)
            (repeat zero (nrow * ncol)) ;;
    Ok (mkD nrow ncol data).

(** num_matrix.rs:448-471 `from_upper` *)
Definition d_from_upper (nrow0 ncol : nat) (at_ : nat -> nat -> T) : res dmat :=
  let nrow := if ncol =? 0 then 0 else nrow0 in
  if negb (nrow =? ncol) then Err "the matrix must be square to set upper triangle"
  else
    data <- for_range 0 nrow (fun i data =>
              for_range i nrow (fun j data => vset data (i + j * nrow) (at_ i j)) data)
            (repeat zero (nrow * ncol)) ;;
    Ok (mkD nrow ncol data).

(** num_matrix.rs:487-499 `diagonal` *)
Definition d_diagonal (v : list T) : res dmat :=
  let nrow := length v in
  data <- for_range 0 nrow (fun i data => x <- vget v i ;; vset data (i + i * nrow) x)
          (repeat zero (nrow * nrow)) ;;
  Ok (mkD nrow nrow data).

(** num_matrix.rs:671-673 `fill` *)
Definition d_fill (a : dmat) (v : T) : dmat :=
  mkD (d_nrow a) (d_ncol a) (map (fun _ => v) (d_data a)).

(** num_matrix.rs:756-758 `get` (also `Index`, 1017-1019, `IndexMut` 1032-1034) *)
Definition d_get (a : dmat) (i j : nat) : res T := vget (d_data a) (i + j * d_nrow a).

(** num_matrix.rs:782-784 `set` *)
Definition d_set (a : dmat) (i j : nat) (v : T) : res dmat :=
  data <- vset (d_data a) (i + j * d_nrow a) v ;; Ok (mkD (d_nrow a) (d_ncol a) data).

(** num_matrix.rs:812-814 `add` *)
Definition d_add (a : dmat) (i j : nat) (v : T) : res dmat :=
  x <- vget (d_data a) (i + j * d_nrow a) ;;
  data <- vset (d_data a) (i + j * d_nrow a) (add x v) ;;
  Ok (mkD (d_nrow a) (d_ncol a) data).

(** num_matrix.rs:842-844 `mul` *)
Definition d_mul (a : dmat) (i j : nat) (v : T) : res dmat :=
  x <- vget (d_data a) (i + j * d_nrow a) ;;
  data <- vset (d_data a) (i + j * d_nrow a) (mul x v) ;;
  Ok (mkD (d_nrow a) (d_ncol a) data).

(** num_matrix.rs:867-873 `extract_row` *)
Definition d_extract_row (a : dmat) (i : nat) : res (list T) :=
  for_range 0 (d_ncol a) (fun j r => x <- vget (d_data a) (i + j * d_nrow a) ;; vset r j x)
    (repeat zero (d_ncol a)).

(** num_matrix.rs:896-902 `extract_column` *)
Definition d_extract_column (a : dmat) (j : nat) : res (list T) :=
  for_range 0 (d_nrow a) (fun i r => x <- vget (d_data a) (i + j * d_nrow a) ;; vset r i x)
    (repeat zero (d_nrow a)).

(** num_matrix.rs:927-936 `transposed` *)
Definition d_transposed (a : dmat) : res dmat :=
  let m := d_nrow a in
  let n := d_ncol a in
  data <- for_range 0 m (fun i data =>
            for_range 0 n (fun j data =>
              x <- vget (d_data a) (i + j * m) ;; vset data (j + i * n) x) data)
          (repeat zero (n * m)) ;;
  Ok (mkD n m data).

End Dense.

Arguments mkD {T}.
Arguments d_nrow {T}.
Arguments d_ncol {T}.
Arguments d_data {T}.
Arguments d_get {T}.
Arguments d_set {T}.
