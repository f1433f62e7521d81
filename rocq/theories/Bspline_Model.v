(** russell_lab/src/algo/bspline.rs: basis functions and points of B-splines.

    f64 is read as a real number.  The arrays `left`, `right` and `ndu` are
    lists; an index outside them is a panic.  The derivative arrays
    (`ders`, `a`, `cc_ders`, `pp_ders`) are in BsplineD_Model. *)
From Verif Require Export Base RBase.
Open Scope R_scope.

(** `m[i][j]` and `m[i][j] = x` for nested vectors *)
Definition get2 (m : list (list R)) (i j : nat) : res R := row <- vget m i ;; vget row j.
Definition set2 (m : list (list R)) (i j : nat) (x : R) : res (list (list R)) :=
  row <- vget m i ;; row <- vset row j x ;; vset m i row.

(** bspline.rs:77-142 *)
Record bspline := mkB {
  b_p : nat; b_uu : list R; b_umin : R; b_umax : R; b_pp : list (list R);
  b_ndu : list (list R); b_left : list R; b_right : list R; b_span : nat }.

(** bspline.rs:151-189 `new`; the extrema start from the first knot instead of
    the infinities *)
Definition bspline_new (p : nat) (uu : list R) : res bspline :=
  if (p <? 1)%nat then Err "the degree must be ≥ 1"
  else if (length uu <? 2 * (p + 1))%nat then Err "the number of knots must be ≥ 2 (p + 1)"
  else
    let umin := fold_left (fun acc u => if Rltb u acc then u else acc) uu (hd 0 uu) in
    let umax := fold_left (fun acc u => if Rltb acc u then u else acc) uu (hd 0 uu) in
    Ok (mkB p uu umin umax [] (repeat (repeat 0 (p + 1)) (p + 1)) (repeat 0 (p + 1)) (repeat 0 (p + 1)) 0).

(** bspline.rs:194-199 `num_basis` *)
Definition num_basis (b : bspline) : res nat := d <- usub (length (b_uu b)) 1 ;; usub d (b_p b).

(** bspline.rs:467-474: the binary search, [fuel] iterations; [None] if it has
    not ended by then *)
Fixpoint span_loop (uu : list R) (u : R) (fuel low high : nat) : res (option nat) :=
  let mid := ((low + high) / 2)%nat in
  um <- vget uu mid ;;
  if Rltb u um then
    match fuel with O => Ok None | S fuel => span_loop uu u fuel low mid end
  else
    um1 <- vget uu (mid + 1) ;;
    if Rleb um1 u then
      match fuel with O => Ok None | S fuel => span_loop uu u fuel mid high end
    else Ok (Some mid).

(** bspline.rs:448-476 `find_span` *)
Definition find_span (p : nat) (uu : list R) (u : R) (fuel : nat) : res (option nat) :=
  m <- usub (length uu) 1 ;;
  n <- usub m p ;;
  n <- usub n 1 ;;
  un1 <- vget uu (n + 1) ;;
  if Rleb un1 u then Ok (Some n)
  else
    up <- vget uu p ;;
    if Rleb u up then Ok (Some p)
    else span_loop uu u fuel p (n + 1).

(** bspline.rs:493-501: the loop over r *)
Definition basis_row (lf rg : list R) (j : nat) (st : list (list R) * R) (r : nat) : res (list (list R) * R) :=
  let '(ndu, saved) := st in
  rr <- vget rg (r + 1) ;;
  jr <- usub j r ;;
  lj <- vget lf jr ;;
  ndu <- set2 ndu j r (rr + lj) ;;
  j1 <- usub j 1 ;;
  x <- get2 ndu r j1 ;;
  y <- get2 ndu j r ;;
  let temp := x / y in
  ndu <- set2 ndu r j (saved + rr * temp) ;;
  Ok (ndu, lj * temp).

(** bspline.rs:483-504 `basis_funs` *)
Definition basis_funs (p : nat) (uu : list R) (u : R) (span : nat) (st : list (list R) * list R * list R) : res (list (list R) * list R * list R) :=
  let '(ndu, lf, rg) := st in
  ndu <- set2 ndu 0 0 1 ;;
  for_range 1 (p + 1) (fun j st =>
    let '(ndu, lf, rg) := st in
    i <- usub (span + 1) j ;;
    ui <- vget uu i ;;
    lf <- vset lf j (u - ui) ;;
    uj <- vget uu (span + j) ;;
    rg <- vset rg j (uj - u) ;;
    ' (ndu, saved) <- for_range 0 j (fun r st => basis_row lf rg j st r) (ndu, 0) ;;
    ndu <- set2 ndu j j saved ;;
    Ok (ndu, lf, rg)) (ndu, lf, rg).

Definition with_span (b : bspline) (span : nat) (st : list (list R) * list R * list R) : bspline :=
  let '(ndu, lf, rg) := st in
  mkB (b_p b) (b_uu b) (b_umin b) (b_umax b) (b_pp b) ndu lf rg span.

(** a search that has not ended; the theorems show that it always ends *)
Definition ended {X} (r : option X) : res X := match r with Some x => Ok x | None => Err "not terminated" end.

(** bspline.rs:231-238 `calc_basis` *)
Definition calc_basis (fuel : nat) (b : bspline) (u : R) : res bspline :=
  if (Rltb u (b_umin b) || Rltb (b_umax b) u)%bool then Err "u is out of range"
  else
    r <- find_span (b_p b) (b_uu b) u fuel ;;
    span <- ended r ;;
    st <- basis_funs (b_p b) (b_uu b) u span (b_ndu b, b_left b, b_right b) ;;
    Ok (with_span b span st).

(** bspline.rs:262-269 `get_basis` *)
Definition get_basis (b : bspline) (i : nat) : res R :=
  if ((b_span b <=? i + b_p b)%nat && (i <=? b_span b)%nat)%bool then
    j <- usub (i + b_p b) (b_span b) ;;
    get2 (b_ndu b) j (b_p b)
  else Ok 0.

(** bspline.rs:410-443 `recursive_nn` *)
Fixpoint recursive_nn (uu : list R) (umax : R) (u : R) (i p : nat) : res R :=
  let u := if Rltb (Rabs (u - umax)) 1e-14 then umax - 1e-14 else u in
  match p with
  | O =>
      ui <- vget uu i ;;
      ui1 <- vget uu (i + 1) ;;
      if (Rleb ui u && Rltb u ui1)%bool then Ok 1 else Ok 0
  | S p' =>
      uip <- vget uu (i + p) ;;
      ui <- vget uu i ;;
      uip1 <- vget uu (i + p + 1) ;;
      ui1 <- vget uu (i + 1) ;;
      let d1 := uip - ui in
      let d2 := uip1 - ui1 in
      ' (n1, d1) <- (if Rltb (Rabs d1) 1e-14 then Ok (0, 1) else n <- recursive_nn uu umax u i p' ;; Ok (n, d1)) ;;
      ' (n2, d2) <- (if Rltb (Rabs d2) 1e-14 then Ok (0, 1) else n <- recursive_nn uu umax u (i + 1) p' ;; Ok (n, d2)) ;;
      Ok ((u - ui) * n1 / d1 + (uip1 - u) * n2 / d2)
  end.

(** bspline.rs:294-299 `recursive_basis` *)
Definition recursive_basis (b : bspline) (u : R) (i : nat) : res R :=
  if (Rltb u (b_umin b) || Rltb (b_umax b) u)%bool then Panic
  else recursive_nn (b_uu b) (b_umax b) u i (b_p b).

(** bspline.rs:205-226 `set_control_points`; the points are the rows *)
Definition set_control_points (b : bspline) (pp : list (list R)) (ndim : nat) : res bspline :=
  nb <- num_basis b ;;
  if negb (length pp =? nb)%nat then Err "the number of control points must equal the number of basis functions"
  else if (ndim =? 0)%nat then Err "the number of dimensions must be ≥ 1"
  else Ok (mkB (b_p b) (b_uu b) (b_umin b) (b_umax b) pp (b_ndu b) (b_left b) (b_right b) (b_span b)).

(** `cc[j] += x * pp[idx][j]` for all j *)
Definition add_point (pp : list (list R)) (ndim : nat) (x : R) (idx : nat) (cc : list R) : res (list R) :=
  for_range 0 ndim (fun j cc =>
    y <- get2 pp idx j ;;
    c <- vget cc j ;;
    vset cc j (c + x * y)) cc.

(** bspline.rs:316-347 `calc_point`; returns the new instance and cc *)
Definition calc_point (fuel : nat) (b : bspline) (cc : list R) (u : R) (recursive : bool) : res (bspline * list R) :=
  nb <- num_basis b ;;
  if negb (length (b_pp b) =? nb)%nat then Err "control points must be set before calling calc_point"
  else
    p0 <- vget (b_pp b) 0 ;;
    let ndim := length p0 in
    if negb (length cc =? ndim)%nat then Err "cc must have the same dimension as control points"
    else if recursive then
      cc <- for_range 0 nb (fun idx cc =>
        basis <- recursive_basis b u idx ;;
        add_point (b_pp b) ndim basis idx cc) (map (fun _ => 0) cc) ;;
      Ok (b, cc)
    else
      r <- find_span (b_p b) (b_uu b) u fuel ;;
      span <- ended r ;;
      st <- basis_funs (b_p b) (b_uu b) u span (b_ndu b, b_left b, b_right b) ;;
      let b := with_span b (b_span b) st in
      cc <- for_range 0 (b_p b + 1) (fun i cc =>
        idx <- usub span (b_p b) ;;
        x <- get2 (b_ndu b) i (b_p b) ;;
        add_point (b_pp b) ndim x (idx + i) cc) (map (fun _ => 0) cc) ;;
      Ok (b, cc).
