(** Model of russell_sparse/src/verify_lin_sys.rs and russell_sparse/src/complex_coo_matrix.rs.

    Simplifications: real arithmetic in the verification; a complex number is the pair of its parts;
    BLAS idamax is the loop of its reference implementation (the first index of a largest absolute value). *)
From Coq Require Import Reals List.
From Verif Require Import Base RBase Dense_Model Sparse_Model.
Import ListNotations.

(* ------------------------------------------------------------------ *)
(** * Complex COO matrices made of real ones *)

Section Cpx.
Variable T : Type.
Variable mul : T -> T -> T.

(** complex_coo_matrix.rs:67,146: `cpx!(alpha * value, beta * value)` *)
Definition cpx_of (alpha beta : T) (t : nat * nat * T) : nat * nat * (T * T) :=
  let '(i, j, x) := t in (i, j, (mul alpha x, mul beta x)).

(** complex_coo_matrix.rs:53-70 `assign_real` *)
Definition coo_assign_real (a : coo (T * T)) (alpha beta : T) (o : coo T) : coo (T * T) * res unit :=
  if negb (c_nrow o =? c_nrow a) then (a, Err "matrices must have the same nrow")
  else if negb (c_ncol o =? c_ncol a) then (a, Err "matrices must have the same ncol")
  else if negb (sym_eqb (c_sym o) (c_sym a)) then (a, Err "matrices must have the same symmetric flag")
  else coo_puts (coo_reset a) (map (cpx_of alpha beta) (coo_triplets o)).

(** complex_coo_matrix.rs:133-149 `add_real` *)
Definition coo_add_real (a : coo (T * T)) (alpha beta : T) (o : coo T) : coo (T * T) * res unit :=
  if c_nrow a <? c_nrow o then (a, Err "other.nrow must be ≤ this.nrow")
  else if c_ncol a <? c_ncol o then (a, Err "other.ncol must be ≤ this.ncol")
  else if negb (sym_eqb (c_sym o) (c_sym a)) then (a, Err "matrices must have the same symmetric flag")
  else coo_puts a (map (cpx_of alpha beta) (coo_triplets o)).
End Cpx.

(* ------------------------------------------------------------------ *)
(** * Verification of linear systems *)
Open Scope R_scope.

(** BLAS idamax, as called by russell_lab/src/base/auxiliary_blas.rs:65-72 `find_index_abs_max` and
    russell_lab/src/vector/vec_norm.rs:45 (zero-based); [k] is the index of the head of the list *)
Fixpoint idamax_aux (k best : nat) (dmax : R) (l : list R) : nat :=
  match l with
  | [] => best
  | x :: r => if Rltb dmax (Rabs x) then idamax_aux (k + 1) k (Rabs x) r else idamax_aux (k + 1) best dmax r
  end.
Definition idamax (l : list R) : nat :=
  match l with [] => 0%nat | x :: r => idamax_aux 1 0 (Rabs x) r end.

(** russell_lab/src/vector/vec_norm.rs:36-51 `vec_norm` with Norm::Max *)
Definition vec_norm_max (v : list R) : res R :=
  if (length v =? 0)%nat then Ok 0
  else x <- vget v (idamax v) ;; Ok (Rabs x).

(** the complex numbers *)
Definition Cx : Type := (R * R)%type.
Definition cx0 : Cx := (0, 0).
Definition cx_add (a b : Cx) : Cx := (fst a + fst b, snd a + snd b).
Definition cx_mul (a b : Cx) : Cx := (fst a * fst b - snd a * snd b, fst a * snd b + snd a * fst b).
Definition cx_norm (a : Cx) : R := sqrt (fst a * fst a + snd a * snd a).
(** russell_lab/src/vector/complex_vec_norm.rs:57-64 (Norm::Max) and verify_lin_sys.rs:118-125 *)
Definition cx_scan_max (v : list Cx) : R :=
  fold_left (fun max z => if Rltb max (cx_norm z) then cx_norm z else max) v 0.
Definition complex_vec_norm_max (v : list Cx) : R :=
  if (length v =? 0)%nat then 0 else cx_scan_max v.

(** russell_lab/src/vector/{vec_update,complex_vec_update}.rs: `v += alpha * u` *)
Definition update {T} (add mul : T -> T -> T) (v : list T) (alpha : T) (u : list T) : res (list T) :=
  if negb (length u =? length v)%nat then Err "vectors are incompatible"
  else Ok (map (fun p => add (fst p) (mul alpha (snd p))) (combine v u)).

(** verify_lin_sys.rs:9-14 *)
Record verify := mkVerify { max_abs_a : R; max_abs_ax : R; max_abs_diff : R; relative_error : R }.

(** coo_matrix.rs:950-952 `get_values` *)
Definition coo_values {T} (c : coo T) : list T := firstn (c_nnz c) (c_vv c).

(** verify_lin_sys.rs:60-96 `from` *)
Definition verify_from (mat : coo R) (x rhs : list R) : res verify :=
  if negb (length x =? c_ncol mat)%nat then Err "x.dim() must be equal to ncol"
  else if negb (length rhs =? c_nrow mat)%nat then Err "rhs.dim() must be equal to nrow"
  else if (length (coo_values mat) <? 1)%nat then Err "matrix is empty"
  else
    a <- vget (coo_values mat) (idamax (coo_values mat)) ;;
    let max_abs_a := Rabs a in
    ax <- unwrap (coo_mat_vec_mul R 0 Rplus Rmult mat (repeat 0 (c_nrow mat)) 1 x) ;;
    max_abs_ax <- vec_norm_max ax ;;
    ax <- unwrap (update Rplus Rmult ax (-1) rhs) ;;
    max_abs_diff <- vec_norm_max ax ;;
    Ok (mkVerify max_abs_a max_abs_ax max_abs_diff (max_abs_diff / (max_abs_a + 1))).

(** verify_lin_sys.rs:104-146 `from_complex` *)
Definition verify_from_complex (mat : coo Cx) (x rhs : list Cx) : res verify :=
  if negb (length x =? c_ncol mat)%nat then Err "x.dim() must be equal to ncol"
  else if negb (length rhs =? c_nrow mat)%nat then Err "rhs.dim() must be equal to nrow"
  else if (length (coo_values mat) <? 1)%nat then Err "matrix is empty"
  else
    let max_abs_a := cx_scan_max (coo_values mat) in
    ax <- unwrap (coo_mat_vec_mul Cx cx0 cx_add cx_mul mat (repeat cx0 (c_nrow mat)) (1, 0) x) ;;
    let max_abs_ax := complex_vec_norm_max ax in
    ax <- unwrap (update cx_add cx_mul ax (-1, 0) rhs) ;;
    let max_abs_diff := complex_vec_norm_max ax in
    Ok (mkVerify max_abs_a max_abs_ax max_abs_diff (max_abs_diff / (max_abs_a + 1))).

(** verify_lin_sys.rs:149-155 `max_relative_error` *)
Definition max_relative_error (v other : verify) : verify :=
  if Rltb (relative_error v) (relative_error other) then other else v.
