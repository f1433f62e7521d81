(** Model of matrix routines of russell_lab: BLAS band conversion and joint
    sorting of eigenvalues/eigenvectors. No law on numbers is assumed. *)
From Verif Require Import Base Dense_Model.

Section LabMat.
Variable T : Type.
(** `a >= b` of the number type (for f64: false when one of them is NaN) *)
Variable ge : T -> T -> bool.

(** mat_convert_to_blas_band.rs:90-104 `mat_convert_to_blas_band` *)
Definition mat_convert_to_blas_band (band dense : dmat T) (ml mu : nat) : res (dmat T) :=
  let m := d_nrow dense in
  let n := d_ncol dense in
  if negb (d_nrow band =? ml + mu + 1) || negb (d_ncol band =? n)
  then Err "the resulting matrix must be ml + mu + 1 by n"
  else
    for_range 0 n (fun j band =>
      let a := if mu <? j then j - mu else 0 in
      let b := if j + ml + 1 <? m then j + ml + 1 else m in
      for_range a b (fun i band =>
        r <- usub (i + mu) j ;;
        x <- d_get dense i j ;;
        d_set band r j x) band) band.

(** sort_vec_mat.rs:29-36: index of the last maximum of l[i..n] and its value *)
Definition svm_find (l : list T) (i n : nat) : res (T * nat) :=
  p0 <- vget l i ;;
  for_range i n (fun j '(p, k) =>
    x <- vget l j ;; Ok (if ge x p then (x, j) else (p, k))) (p0, i).

(** sort_vec_mat.rs:40-44: swap columns i and k *)
Definition svm_swap (v : dmat T) (i k n : nat) : res (dmat T) :=
  for_range 0 n (fun j v =>
    p <- d_get v j i ;;
    x <- d_get v j k ;;
    v <- d_set v j i x ;;
    d_set v j k p) v.

(** sort_vec_mat.rs:20-48 `sort_vec_mat` *)
Definition sort_vec_mat (l : list T) (v : dmat T) : res (list T * dmat T) :=
  let m := d_nrow v in
  let n := d_ncol v in
  if negb (m =? n) then Err "matrix must be square"
  else if negb (length l =? n) then Err "vector must have the same dimension as matrix"
  else
    n1 <- usub n 1 ;;
    for_range 0 n1 (fun i '(l, v) =>
      '(p, k) <- svm_find l i n ;;
      if negb (k =? i) then
        li <- vget l i ;;
        l <- vset l k li ;;
        l <- vset l i p ;;
        v <- svm_swap v i k n ;;
        Ok (l, v)
      else Ok (l, v)) (l, v).

End LabMat.
