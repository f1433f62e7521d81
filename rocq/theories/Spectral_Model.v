(** Model of russell_tensor/src/spectral2.rs (real arithmetic).

    Simplifications: the state after a failed decomposition is not given (the eigenvalue routine may
    have changed `lambda`); the standard matrices of the tensor model are functions, turned here into
    the dense matrices on which the Jacobi rotations work. *)
From Coq Require Import Reals List.
From Verif Require Import Base RBase Dense_Model Jacobi_Model Tensor_Model.
Import ListNotations.
Open Scope R_scope.

(** spectral2.rs:6-15 `struct Spectral2` *)
Record spectral := mkSp { sp_rep : rep; sp_lambda : list R; sp_projectors : list t2 }.

(** spectral2.rs:21-28 `new` *)
Definition sp_new (two_dim : bool) : spectral :=
  let r := if two_dim then Symmetric2D else Symmetric in
  mkSp r [0; 0; 0] [t2_new r; t2_new r; t2_new r].

(** `t1_dyad_t1(&mut self.projectors[k], 1.0, &u, &u).unwrap()` *)
Definition sp_dyad (ps : list t2) (k : nat) (u : t1) : res (list t2) :=
  p <- vget ps k ;;
  let '(p', r) := t1_dyad_t1 p 1 u u in
  _ <- unwrap r ;;
  vset ps k p'.

(** spectral2.rs:35-75 `decompose` *)
Definition sp_decompose (sp : spectral) (t : t2) : res spectral :=
  if negb (rep_eqb (t2_rep t) (sp_rep sp)) then Err "the representation is incompatible"
  else if (t2_dim t =? 4)%nat then
    ' ta <- t2_as_std_matrix_2d t ;;
    let '(t22, aa) := ta in
    let a := d_initialized R 2 2 aa in
    ' r <- mat_eigen_sym_jacobi [0; 0] (d_new R 0 2 2) a ;;
    let '(_, l, v, _) := r in
    l0 <- vget l 0 ;;
    lam <- vset (sp_lambda sp) 0 l0 ;;
    l1 <- vget l 1 ;;
    lam <- vset lam 1 l1 ;;
    lam <- vset lam 2 t22 ;;
    v00 <- d_get v 0 0 ;; v10 <- d_get v 1 0 ;;
    v01 <- d_get v 0 1 ;; v11 <- d_get v 1 1 ;;
    let u0 := t1_from v00 v10 0 in
    let u1 := t1_from v01 v11 0 in
    ps <- sp_dyad (sp_projectors sp) 0 u0 ;;
    ps <- sp_dyad ps 1 u1 ;;
    p2 <- vget ps 2 ;;
    ps <- vset ps 2 (t2_clear p2) ;;
    p2 <- vget ps 2 ;;
    p2' <- t2_set p2 2 1 ;;
    ps <- vset ps 2 p2' ;;
    Ok (mkSp (sp_rep sp) lam ps)
  else
    ' ra <- t2_as_std_matrix t ;;
    let '(_, aa) := ra in
    let a := d_initialized R 3 3 aa in
    ' r <- mat_eigen_sym_jacobi (sp_lambda sp) (d_new R 0 3 3) a ;;
    let '(_, lam, v, _) := r in
    v00 <- d_get v 0 0 ;; v10 <- d_get v 1 0 ;; v20 <- d_get v 2 0 ;;
    v01 <- d_get v 0 1 ;; v11 <- d_get v 1 1 ;; v21 <- d_get v 2 1 ;;
    v02 <- d_get v 0 2 ;; v12 <- d_get v 1 2 ;; v22 <- d_get v 2 2 ;;
    let u0 := t1_from v00 v10 v20 in
    let u1 := t1_from v01 v11 v21 in
    let u2 := t1_from v02 v12 v22 in
    ps <- sp_dyad (sp_projectors sp) 0 u0 ;;
    ps <- sp_dyad ps 1 u1 ;;
    ps <- sp_dyad ps 2 u2 ;;
    Ok (mkSp (sp_rep sp) lam ps).

(** spectral2.rs:78-95 `compose` *)
Definition sp_compose (sp : spectral) (composed : t2) (lambda : list R) : res t2 :=
  if negb (rep_eqb (t2_rep composed) (sp_rep sp)) then Err "the representation is incompatible"
  else if negb (length lambda =? 3)%nat then Err "lambda.dim must be equal to 3"
  else
    p0 <- vget (sp_projectors sp) 0 ;;
    for_range 0 (t2_dim p0) (fun m c =>
      l0 <- vget lambda 0 ;; q0 <- vget (sp_projectors sp) 0 ;; x0 <- t2_get q0 m ;;
      l1 <- vget lambda 1 ;; q1 <- vget (sp_projectors sp) 1 ;; x1 <- t2_get q1 m ;;
      l2 <- vget lambda 2 ;; q2 <- vget (sp_projectors sp) 2 ;; x2 <- t2_get q2 m ;;
      t2_set c m (l0 * x0 + l1 * x1 + l2 * x2)) composed.

(** spectral2.rs:100-106 `octahedral_basis` *)
Definition sp_octahedral (sp : spectral) : res (R * R * R) :=
  s1 <- vget (sp_lambda sp) 0 ;;
  s2 <- vget (sp_lambda sp) 1 ;;
  s3 <- vget (sp_lambda sp) 2 ;;
  Ok ((2 * s1 - s2 - s3) / SQRT_6, (s1 + s2 + s3) / SQRT_3, (s3 - s2) / SQRT_2).
