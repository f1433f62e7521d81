(** russell_lab/src/matrix/mat_eigen_sym_jacobi.rs: eigenpairs of a symmetric
    matrix by Jacobi rotations.  f64 is read as a real number.  The division
    0.5 * h / a(p,q) by zero gives an infinite theta and t = 1 / inf = 0 in
    floating point; the model takes t = 0 directly in this case. *)
From Verif Require Export Base RBase Dense_Model.
Open Scope R_scope.

(** mat_eigen_sym_jacobi.rs:5, 8 *)
Definition TOLERANCE : R := 1e-15.
Definition N_MAX_ITERATIONS : nat := 20.

(** mat_eigen_sym_jacobi.rs:142-151 *)
Definition jacobi_t (lp lq apq : R) : R :=
  let h := lq - lp in
  if Rleb (Rabs h) TOLERANCE then 1
  else if Reqb apq 0 then 0
  else
    let theta := 0.5 * h / apq in
    let t := 1 / (Rabs theta + sqrt (1 + theta * theta)) in
    if Rltb theta 0 then - t else t.

(** mat_eigen_sym_jacobi.rs:163-166, 170-173, 177-180, 184-187: rotate the
    entries at (i1, j1) and (i2, j2) *)
Definition rot_pair (s tau : R) (i1 j1 i2 j2 : nat) (m : dmat R) : res (dmat R) :=
  g <- d_get m i1 j1 ;;
  h <- d_get m i2 j2 ;;
  m <- d_set m i1 j1 (g - s * (h + g * tau)) ;;
  d_set m i2 j2 (h + s * (g - h * tau)).

(** `v[i] += x` *)
Definition vadd (v : list R) (i : nat) (x : R) : res (list R) := y <- vget v i ;; vset v i (y + x).

(** a, l, z, v *)
Definition jst : Type := dmat R * list R * list R * dmat R.

(** mat_eigen_sym_jacobi.rs:142-188: one rotation *)
Definition jacobi_rotate (n p q : nat) (st : jst) : res jst :=
  let '(a, l, z, v) := st in
  lp <- vget l p ;;
  lq <- vget l q ;;
  apq <- d_get a p q ;;
  let t := jacobi_t lp lq apq in
  let c := 1 / sqrt (1 + t * t) in
  let s := t * c in
  let tau := s / (1 + c) in
  let h := t * apq in
  z <- vadd z p (- h) ;;
  z <- vadd z q h ;;
  l <- vadd l p (- h) ;;
  l <- vadd l q h ;;
  a <- d_set a p q 0 ;;
  a <- for_range 0 p (fun j a => rot_pair s tau j p j q a) a ;;
  a <- for_range (p + 1) q (fun j a => rot_pair s tau p j j q a) a ;;
  a <- for_range (q + 1) n (fun j a => rot_pair s tau p j q j a) a ;;
  v <- for_range 0 n (fun j v => rot_pair s tau j p j q v) v ;;
  Ok (a, l, z, v).

(** mat_eigen_sym_jacobi.rs:127-132 *)
Definition jacobi_sm (n : nat) (a : dmat R) : res R :=
  m <- usub n 1 ;;
  for_range 0 m (fun p sm => for_range (p + 1) n (fun q sm => x <- d_get a p q ;; Ok (sm + Rabs x)) sm) 0.

(** mat_eigen_sym_jacobi.rs:140-190: one sweep of rotations *)
Definition jacobi_rotations (n : nat) (st : jst) : res jst :=
  m <- usub n 1 ;;
  for_range 0 m (fun p st => for_range (p + 1) n (fun q st => jacobi_rotate n p q st) st) st.

(** mat_eigen_sym_jacobi.rs:191-195 *)
Definition jacobi_refresh (n : nat) (b l z : list R) : res (list R * list R * list R) :=
  for_range 0 n (fun p blz =>
    let '(b, l, z) := blz in
    zp <- vget z p ;;
    b <- vadd b p zp ;;
    bp <- vget b p ;;
    l <- vset l p bp ;;
    z <- vset z p 0 ;;
    Ok (b, l, z)) (b, l, z).

(** mat_eigen_sym_jacobi.rs:125-198; result: iterations, l, v, a *)
Fixpoint jacobi_iterate (k : nat) (n iteration : nat) (b : list R) (st : jst) : res (nat * list R * dmat R * dmat R) :=
  match k with
  | O => Err "Jacobi rotation did not converge"
  | S k' =>
      let '(a, l, z, v) := st in
      sm <- jacobi_sm n a ;;
      if Rltb sm TOLERANCE then Ok ((iteration + 1)%nat, l, v, a)
      else
        ' (a, l, z, v) <- jacobi_rotations n st ;;
        ' (b, l, z) <- jacobi_refresh n b l z ;;
        jacobi_iterate k' n (iteration + 1) b (a, l, z, v)
  end.

(** mat_eigen_sym_jacobi.rs:79-199 `mat_eigen_sym_jacobi` *)
Definition mat_eigen_sym_jacobi (l : list R) (v a : dmat R) : res (nat * list R * dmat R * dmat R) :=
  let m := d_nrow a in
  let n := d_ncol a in
  if negb (m =? n)%nat then Err "matrix must be square"
  else if (m =? 0)%nat then Err "matrix dimension must be ≥ 1"
  else if negb ((d_nrow v =? m)%nat && (d_ncol v =? n)%nat) then Err "v and a matrices must have the same dimensions"
  else if negb (length l =? n)%nat then Err "l vector has incompatible dimension"
  else
    let b := repeat 0 n in
    let z := repeat 0 n in
    ' (b, l) <- for_range 0 n (fun p bl =>
      let '(b, l) := bl in
      x <- d_get a p p ;;
      b <- vset b p x ;;
      l <- vset l p x ;;
      Ok (b, l)) (b, l) ;;
    v <- for_range 0 n (fun p v =>
      v <- for_range 0 n (fun q v => d_set v p q 0) v ;;
      d_set v p p 1) v ;;
    jacobi_iterate N_MAX_ITERATIONS n 0 b (a, l, z, v).
