(** russell_lab/src/algo/bspline.rs: derivatives of the basis functions and of
    the curve (Algorithms A2.3, A3.2, A3.3 and A3.4).

    f64 is read as a real number.  The arrays are lists; an index outside them is
    a panic. *)
From Verif Require Export Bspline_Model.
Open Scope R_scope.

(** bspline.rs:77-142: the instance of Bspline_Model with `ders`, `a`, `cc_ders`
    and `pp_ders` *)
Record dspline := mkD {
  d_b : bspline; d_ders : list (list R); d_a : list (list R);
  d_cc : list (list R); d_pp : list (list (list R)) }.

(** bspline.rs:172-188, the last part of `new` *)
Definition dspline_new (p : nat) (uu : list R) : res dspline :=
  b <- bspline_new p uu ;;
  Ok (mkD b (repeat (repeat 0 (p + 1)) (p + 1)) (repeat (repeat 0 (p + 1)) 2) [] []).

(** bspline.rs:205-226 `set_control_points`: the derivative arrays are kept *)
Definition d_set_control_points (x : dspline) (pp : list (list R)) (ndim : nat) : res dspline :=
  b <- set_control_points (d_b x) pp ndim ;;
  Ok (mkD b (d_ders x) (d_a x) (d_cc x) (d_pp x)).

(** bspline.rs:516-518 *)
Definition load_basis (p : nat) (ndu ders : list (list R)) : res (list (list R)) :=
  for_range 0 (p + 1) (fun j ders =>
    x <- get2 ndu j p ;;
    set2 ders 0 j x) ders.

(** bspline.rs:540-543, the first step *)
Definition first_step (ndu : list (list R)) (r k pk s1 s2 : nat) (a : list (list R)) : res (list (list R) * R) :=
  if (k <=? r)%nat then
    rk <- usub r k ;;
    x <- get2 a s1 0 ;;
    y <- get2 ndu (pk + 1) rk ;;
    a <- set2 a s2 0 (x / y) ;;
    z <- get2 a s2 0 ;;
    w <- get2 ndu rk pk ;;
    Ok (a, z * w)
  else Ok (a, 0).

(** bspline.rs:549-551, the body of the second step *)
Definition second_step (ndu : list (list R)) (r k pk s1 s2 j : nat) (st : list (list R) * R) : res (list (list R) * R) :=
  let '(a, d) := st in
  rkj <- usub (r + j) k ;;
  x <- get2 a s1 j ;;
  j1 <- usub j 1 ;;
  x1 <- get2 a s1 j1 ;;
  y <- get2 ndu (pk + 1) rkj ;;
  a <- set2 a s2 j ((x - x1) / y) ;;
  z <- get2 a s2 j ;;
  w <- get2 ndu rkj pk ;;
  Ok (a, d + z * w).

(** bspline.rs:555-558, the third step *)
Definition third_step (ndu : list (list R)) (r k pk s1 s2 : nat) (st : list (list R) * R) : res (list (list R) * R) :=
  let '(a, d) := st in
  if (r <=? pk)%nat then
    k1 <- usub k 1 ;;
    x <- get2 a s1 k1 ;;
    y <- get2 ndu (pk + 1) r ;;
    a <- set2 a s2 k (- x / y) ;;
    z <- get2 a s2 k ;;
    w <- get2 ndu r pk ;;
    Ok (a, d + z * w)
  else Ok (a, d).

(** bspline.rs:536-562, one k; `swap` exchanges s1 and s2 *)
Definition ders_step (p : nat) (ndu : list (list R)) (r k : nat) (st : list (list R) * list (list R) * nat * nat) :
    res (list (list R) * list (list R) * nat * nat) :=
  let '(ders, a, s1, s2) := st in
  pk <- usub p k ;;
  ' (a, d) <- first_step ndu r k pk s1 s2 a ;;
  k1 <- usub k 1 ;;
  j1 <- (if (k1 <=? r)%nat then Ok 1%nat else usub k r) ;;
  j2 <- (if (r <=? pk + 1)%nat then Ok k1 else usub p r) ;;
  ' (a, d) <- for_range j1 (j2 + 1) (second_step ndu r k pk s1 s2) (a, d) ;;
  ' (a, d) <- third_step ndu r k pk s1 s2 (a, d) ;;
  ders <- set2 ders k r d ;;
  Ok (ders, a, s2, s1).

(** bspline.rs:528-564, one r *)
Definition ders_row (p upto : nat) (ndu : list (list R)) (r : nat) (st : list (list R) * list (list R)) : res (list (list R) * list (list R)) :=
  let '(ders, a) := st in
  a <- set2 a 0 0 1 ;;
  ' (ders, a, _, _) <- for_range 1 (upto + 1) (ders_step p ndu r) (ders, a, 0%nat, 1%nat) ;;
  Ok (ders, a).

(** bspline.rs:569-571 *)
Definition scale_row (p k : nat) (d : R) (ders : list (list R)) : res (list (list R)) :=
  for_range 0 (p + 1) (fun j ders =>
    x <- get2 ders k j ;;
    set2 ders k j (x * d)) ders.

(** bspline.rs:567-573 *)
Definition scale_ders (p upto : nat) (ders : list (list R)) : res (list (list R)) :=
  ' (ders, _) <- for_range 1 (upto + 1) (fun k st =>
    let '(ders, d) := st in
    ders <- scale_row p k d ders ;;
    pk <- usub p k ;;
    Ok (ders, d * INR pk)) (ders, INR p) ;;
  Ok ders.

(** bspline.rs:511-574 `ders_basis_funs` *)
Definition ders_basis_funs (p : nat) (uu : list R) (u : R) (span upto : nat)
    (st : list (list R) * list R * list R) (ders a : list (list R)) :
    res ((list (list R) * list R * list R) * list (list R) * list (list R)) :=
  ' (ndu, lf, rg) <- basis_funs p uu u span st ;;
  ders <- load_basis p ndu ders ;;
  ' (ders, a) <- for_range 0 (p + 1) (ders_row p upto ndu) (ders, a) ;;
  ders <- scale_ders p upto ders ;;
  Ok ((ndu, lf, rg), ders, a).

(** bspline.rs:243-253 `calc_basis_and_derivs` *)
Definition calc_basis_and_derivs (fuel : nat) (x : dspline) (u : R) (upto : nat) : res dspline :=
  let b := d_b x in
  if (Rltb u (b_umin b) || Rltb (b_umax b) u)%bool then Err "u is out of range"
  else if (b_p b <? upto)%nat then Err "upto must be in [0, p]"
  else
    r <- find_span (b_p b) (b_uu b) u fuel ;;
    span <- ended r ;;
    ' (st, ders, a) <- ders_basis_funs (b_p b) (b_uu b) u span upto (b_ndu b, b_left b, b_right b) (d_ders x) (d_a x) ;;
    Ok (mkD (with_span b span st) ders a (d_cc x) (d_pp x)).

(** bspline.rs:278-285 `get_basis_deriv` *)
Definition get_basis_deriv (x : dspline) (i degree : nat) : res R :=
  let b := d_b x in
  if ((b_span b <=? i + b_p b)%nat && (i <=? b_span b)%nat)%bool then
    j <- usub (i + b_p b) (b_span b) ;;
    get2 (d_ders x) degree j
  else Ok 0.

(** bspline.rs:587-590 and 656-659 *)
Definition fit_cc (p ndim : nat) (cc : list (list R)) : list (list R) :=
  if negb (length cc =? p + 1)%nat then repeat (repeat 0 ndim) (p + 1) else cc.

(** bspline.rs:583-602 `curve_derivs_alg1`; the row k of `cc_ders` is taken out
    of the array while it is updated *)
Definition curve_derivs_alg1 (fuel : nat) (x : dspline) (u : R) (upto : nat) : res dspline :=
  let b := d_b x in
  nb <- num_basis b ;;
  _ <- assert_ (length (b_pp b) =? nb)%nat ;;
  p0 <- vget (b_pp b) 0 ;;
  _ <- assert_ (0 <? length p0)%nat ;;
  _ <- assert_ (upto <=? b_p b)%nat ;;
  let ndim := length p0 in
  let cc := fit_cc (b_p b) ndim (d_cc x) in
  r <- find_span (b_p b) (b_uu b) u fuel ;;
  span <- ended r ;;
  ' (st, ders, a) <- ders_basis_funs (b_p b) (b_uu b) u span upto (b_ndu b, b_left b, b_right b) (d_ders x) (d_a x) ;;
  cc <- for_range 0 (upto + 1) (fun k cc =>
    row <- vget cc k ;;
    row <- for_range 0 (b_p b + 1) (fun j row =>
      idx <- usub span (b_p b) ;;
      d <- get2 ders k j ;;
      add_point (b_pp b) ndim d (idx + j) row) (map (fun _ => 0) row) ;;
    vset cc k row) cc ;;
  Ok (mkD (with_span b (b_span b) st) ders a cc (d_pp x)).

(** `m[k][i][l]` and `m[k][i][l] = x` *)
Definition get3 (m : list (list (list R))) (k i l : nat) : res R := t <- vget m k ;; get2 t i l.
Definition set3 (m : list (list (list R))) (k i l : nat) (x : R) : res (list (list (list R))) :=
  t <- vget m k ;; t <- set2 t i l x ;; vset m k t.

(** bspline.rs:614-643 `curve_deriv_cpts`; returns `pp_ders` *)
Definition curve_deriv_cpts (b : bspline) (ppd : list (list (list R))) (upto r1 r2 : nat) : res (list (list (list R))) :=
  nb <- num_basis b ;;
  _ <- assert_ (length (b_pp b) =? nb)%nat ;;
  p0 <- vget (b_pp b) 0 ;;
  _ <- assert_ (0 <? length p0)%nat ;;
  _ <- assert_ (upto <=? b_p b)%nat ;;
  _ <- assert_ (r1 <=? r2)%nat ;;
  let ndim := length p0 in
  let npp := length (b_pp b) in
  let ppd := if negb (length ppd =? b_p b + 1)%nat then repeat (repeat (repeat 0 ndim) npp) (b_p b + 1) else ppd in
  r <- usub r2 r1 ;;
  ppd <- for_range 0 (r + 1) (fun i => for_range 0 ndim (fun l ppd =>
    x <- get2 (b_pp b) (r1 + i) l ;;
    set3 ppd 0 i l x)) ppd ;;
  for_range 1 (upto + 1) (fun k ppd =>
    pk <- usub (b_p b) k ;;
    rk <- usub r k ;;
    for_range 0 (rk + 1) (fun i => for_range 0 ndim (fun l ppd =>
      k1 <- usub k 1 ;;
      x <- get3 ppd k1 (i + 1) l ;;
      y <- get3 ppd k1 i l ;;
      v <- vget (b_uu b) (r1 + i + b_p b + 1) ;;
      w <- vget (b_uu b) (r1 + i + k) ;;
      set3 ppd k i l (INR (pk + 1) * (x - y) / (v - w)))) ppd) ppd.

(** bspline.rs:652-671 `curve_derivs_alg2` *)
Definition curve_derivs_alg2 (fuel : nat) (x : dspline) (u : R) (upto : nat) : res dspline :=
  let b := d_b x in
  nb <- num_basis b ;;
  _ <- assert_ (length (b_pp b) =? nb)%nat ;;
  p0 <- vget (b_pp b) 0 ;;
  _ <- assert_ (0 <? length p0)%nat ;;
  _ <- assert_ (upto <=? b_p b)%nat ;;
  let ndim := length p0 in
  let cc := fit_cc (b_p b) ndim (d_cc x) in
  r <- find_span (b_p b) (b_uu b) u fuel ;;
  span <- ended r ;;
  ' (st, ders, a) <- ders_basis_funs (b_p b) (b_uu b) u span upto (b_ndu b, b_left b, b_right b) (d_ders x) (d_a x) ;;
  let b' := with_span b (b_span b) st in
  sp <- usub span (b_p b) ;;
  ppd <- curve_deriv_cpts b' (d_pp x) upto sp span ;;
  cc <- for_range 0 (upto + 1) (fun k cc =>
    row <- vget cc k ;;
    pk <- usub (b_p b) k ;;
    t <- vget ppd k ;;
    row <- for_range 0 (pk + 1) (fun j row =>
      d <- get2 (b_ndu b') j pk ;;
      add_point t ndim d j row) (map (fun _ => 0) row) ;;
    vset cc k row) cc ;;
  Ok (mkD b' ders a cc ppd).

(** bspline.rs:381-388 `calc_curve_derivs` *)
Definition calc_curve_derivs (fuel : nat) (x : dspline) (u : R) (upto : nat) (use_control : bool) : res dspline :=
  let upto := Nat.min upto (b_p (d_b x)) in
  if use_control then curve_derivs_alg2 fuel x u upto else curve_derivs_alg1 fuel x u upto.

(** bspline.rs:397-405 `get_curve_deriv`; returns the new cck *)
Definition get_curve_deriv (x : dspline) (cck : list R) (k : nat) : res (list R) :=
  if (b_p (d_b x) <? k)%nat then Ok (map (fun _ => 0) cck)
  else for_range 0 (length cck) (fun l cck =>
    v <- get2 (d_cc x) k l ;;
    vset cck l v) cck.

(** bspline.rs:352-361 `get_elements` *)
Definition get_elements (b : bspline) (tolerance : R) : res (list (nat * nat)) :=
  m <- usub (length (b_uu b)) 1 ;;
  for_range 0 m (fun i spans =>
    y <- vget (b_uu b) (i + 1) ;;
    x <- vget (b_uu b) i ;;
    if Rltb tolerance (Rabs (y - x)) then Ok (spans ++ [(i, i + 1)%nat]) else Ok spans) [].
