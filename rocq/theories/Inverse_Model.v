(** Model of russell_lab/src/matrix/mat_inverse.rs over exact real arithmetic. *)
From Verif Require Import Base RBase Dense_Model.
Open Scope R_scope.

(** mat_inverse.rs:23 `ZERO_DETERMINANT` = 1e-15 *)
Definition ZERO_DETERMINANT : R := / 10 ^ 15.

(** write a list of (i, j, value) in order *)
Definition sets (ai : dmat R) (l : list (nat * nat * R)) : res (dmat R) :=
  for_each l (fun '(i, j, v) ai => d_set ai i j v) ai.

Section Inv.
(** mat_inverse.rs:199-254: the LAPACK path for m >= 4 (dgetrf + dgetri), not modelled *)
Variable lapack_inverse : dmat R -> res (R * dmat R).

(** mat_inverse.rs:136-255 `mat_inverse`; the returned pair is (determinant, new ai).
    The entries of a are read once up front instead of at each use. *)
Definition mat_inverse (ai a : dmat R) : res (R * dmat R) :=
  let m := d_nrow a in
  let n := d_ncol a in
  if negb (m =? n)%nat then Err "matrix must be square"
  else if negb (d_nrow ai =? m)%nat || negb (d_ncol ai =? n)%nat then Err "matrices are incompatible"
  else
  match m with
  | 0%nat => Ok (0, ai)
  | 1%nat =>
    det <- d_get a 0 0 ;;
    if Rleb (Rabs det) ZERO_DETERMINANT then Err "cannot compute inverse due to zero determinant"
    else
      ai <- d_set ai 0 0 (1 / det) ;;
      Ok (det, ai)
  | 2%nat =>
    a00 <- d_get a 0 0 ;; a01 <- d_get a 0 1 ;;
    a10 <- d_get a 1 0 ;; a11 <- d_get a 1 1 ;;
    let det := a00 * a11 - a01 * a10 in
    if Rleb (Rabs det) ZERO_DETERMINANT then Err "cannot compute inverse due to zero determinant"
    else
      ai <- sets ai [(0%nat, 0%nat, a11 / det); (0%nat, 1%nat, - a01 / det);
                     (1%nat, 0%nat, - a10 / det); (1%nat, 1%nat, a00 / det)] ;;
      Ok (det, ai)
  | 3%nat =>
    a00 <- d_get a 0 0 ;; a01 <- d_get a 0 1 ;; a02 <- d_get a 0 2 ;;
    a10 <- d_get a 1 0 ;; a11 <- d_get a 1 1 ;; a12 <- d_get a 1 2 ;;
    a20 <- d_get a 2 0 ;; a21 <- d_get a 2 1 ;; a22 <- d_get a 2 2 ;;
    let det :=
        a00 * (a11 * a22 - a12 * a21)
      - a01 * (a10 * a22 - a12 * a20)
      + a02 * (a10 * a21 - a11 * a20) in
    if Rleb (Rabs det) ZERO_DETERMINANT then Err "cannot compute inverse due to zero determinant"
    else
      ai <- sets ai [
        (0%nat, 0%nat, (a11 * a22 - a12 * a21) / det);
        (0%nat, 1%nat, (a02 * a21 - a01 * a22) / det);
        (0%nat, 2%nat, (a01 * a12 - a02 * a11) / det);
        (1%nat, 0%nat, (a12 * a20 - a10 * a22) / det);
        (1%nat, 1%nat, (a00 * a22 - a02 * a20) / det);
        (1%nat, 2%nat, (a02 * a10 - a00 * a12) / det);
        (2%nat, 0%nat, (a10 * a21 - a11 * a20) / det);
        (2%nat, 1%nat, (a01 * a20 - a00 * a21) / det);
        (2%nat, 2%nat, (a00 * a11 - a01 * a10) / det)] ;;
      Ok (det, ai)
  | _ => lapack_inverse a
  end.
End Inv.
