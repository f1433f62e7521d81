(** The assertions russell_lab/src/check/{approx_eq,array_approx_eq,complex_approx_eq,complex_array_approx_eq,assert_alike}.rs,
    vector/{vec,complex_vec}_approx_eq.rs and matrix/{mat,complex_mat}_approx_eq.rs, over IEEE 754 binary64 numbers (Flocq's
    [binary_float 53 1024], with one NaN). An assertion that passes is [Ok tt], one that panics is [Panic]. *)
From Coq Require Import List Bool ZArith Lia Reals.
From Flocq Require Import Core IEEE754.BinarySingleNaN.
From Verif Require Import Base Dense_Model.
Import ListNotations.

Definition f64 := binary_float 53 1024.
#[global] Instance prec53 : Prec_gt_0 53 := eq_refl.
#[global] Instance emax1024 : Prec_lt_emax 53 1024 := eq_refl.

(** f64::is_infinite *)
Definition is_infinite (x : f64) : bool := match x with B754_infinity _ => true | _ => false end.
(** f64::is_nan *)
Definition is_nan64 (x : f64) : bool := match x with B754_nan => true | _ => false end.
(** [f64::abs(x - y)] *)
Definition abs_diff (x y : f64) : f64 := Babs (Bminus mode_NE x y).
(** [if b { panic!(..) }] *)
Definition panic_if (b : bool) : res unit := if b then Panic else Ok tt.

Section Generic.
(** the element type and its NumCast conversion `to_f64` (which gives Some for the primitive number types) *)
Context {T : Type} (to_f64 : T -> f64).

(** approx_eq.rs:41-63 *)
Definition approx_eq (a b : T) (tol : f64) : res unit :=
  let aa := to_f64 a in
  let bb := to_f64 b in
  _ <- panic_if (is_nan64 aa) ;;
  _ <- panic_if (is_nan64 bb) ;;
  _ <- panic_if (is_infinite aa) ;;
  _ <- panic_if (is_infinite bb) ;;
  let diff := abs_diff aa bb in
  panic_if (Bltb tol diff).

(** array_approx_eq.rs:36-64 *)
Definition array_approx_eq (u v : list T) (tol : f64) : res unit :=
  let m := length u in
  _ <- panic_if (negb (m =? length v)%nat) ;;
  for_range 0 m (fun i _ =>
    x <- vget u i ;;
    y <- vget v i ;;
    let ui := to_f64 x in
    let vi := to_f64 y in
    _ <- panic_if (is_nan64 ui) ;;
    _ <- panic_if (is_nan64 vi) ;;
    _ <- panic_if (is_infinite ui) ;;
    _ <- panic_if (is_infinite vi) ;;
    let diff := abs_diff ui vi in
    panic_if (Bltb tol diff)) tt.

(** complex_approx_eq.rs:56-101; a complex number is the pair (re, im) *)
Definition complex_approx_eq (a b : T * T) (tol : f64) : res unit :=
  let aa_re := to_f64 (fst a) in
  let bb_re := to_f64 (fst b) in
  _ <- panic_if (is_nan64 aa_re) ;;
  _ <- panic_if (is_nan64 bb_re) ;;
  _ <- panic_if (is_infinite aa_re) ;;
  _ <- panic_if (is_infinite bb_re) ;;
  let aa_im := to_f64 (snd a) in
  let bb_im := to_f64 (snd b) in
  _ <- panic_if (is_nan64 aa_im) ;;
  _ <- panic_if (is_nan64 bb_im) ;;
  _ <- panic_if (is_infinite aa_im) ;;
  _ <- panic_if (is_infinite bb_im) ;;
  let diff_re := abs_diff aa_re bb_re in
  _ <- panic_if (Bltb tol diff_re) ;;
  let diff_im := abs_diff aa_im bb_im in
  panic_if (Bltb tol diff_im).

(** complex_array_approx_eq.rs:51-102 *)
Definition complex_array_approx_eq (u v : list (T * T)) (tol : f64) : res unit :=
  let m := length u in
  _ <- panic_if (negb (m =? length v)%nat) ;;
  for_range 0 m (fun i _ =>
    x <- vget u i ;;
    y <- vget v i ;;
    let ui_re := to_f64 (fst x) in
    let vi_re := to_f64 (fst y) in
    _ <- panic_if (is_nan64 ui_re) ;;
    _ <- panic_if (is_nan64 vi_re) ;;
    _ <- panic_if (is_infinite ui_re) ;;
    _ <- panic_if (is_infinite vi_re) ;;
    let ui_im := to_f64 (snd x) in
    let vi_im := to_f64 (snd y) in
    _ <- panic_if (is_nan64 ui_im) ;;
    _ <- panic_if (is_nan64 vi_im) ;;
    _ <- panic_if (is_infinite ui_im) ;;
    _ <- panic_if (is_infinite vi_im) ;;
    let diff_re := abs_diff ui_re vi_re in
    _ <- panic_if (Bltb tol diff_re) ;;
    let diff_im := abs_diff ui_im vi_im in
    panic_if (Bltb tol diff_im)) tt.
End Generic.

(** vec_approx_eq.rs:37-42 and complex_vec_approx_eq.rs:51-56: a vector is its data *)
Definition vec_approx_eq (u v : list f64) (tol : f64) : res unit := array_approx_eq (fun x => x) u v tol.
Definition complex_vec_approx_eq (u v : list (f64 * f64)) (tol : f64) : res unit := complex_array_approx_eq (fun x => x) u v tol.

(** assert_alike.rs:27-38 *)
Definition assert_alike (a b : f64) : res unit :=
  let alike :=
    if is_nan64 a && is_nan64 b then true
    else if Beqb a b then Bool.eqb (Bsign a) (Bsign b)
    else false in
  panic_if (negb alike).

(** as_array.rs:205-257: `size` and `at` of nested vectors, slices and arrays *)
Definition nested_size {U} (b : list (list U)) : res (nat * nat) := r <- vget b 0 ;; Ok (length b, length r).
Definition nested_at {U} (b : list (list U)) (i j : nat) : res U := r <- vget b i ;; vget r j.

(** mat_approx_eq.rs:49-78, with a nested second argument *)
Definition mat_approx_eq (a : dmat f64) (b : list (list f64)) (tol : f64) : res unit :=
  let '(m, n) := (d_nrow a, d_ncol a) in
  ' (mm, nn) <- nested_size b ;;
  _ <- panic_if (negb (m =? mm)%nat) ;;
  _ <- panic_if (negb (n =? nn)%nat) ;;
  for_range 0 m (fun i _ =>
    for_range 0 n (fun j _ =>
      x <- d_get a i j ;;
      y <- nested_at b i j ;;
      let diff := abs_diff x y in
      _ <- panic_if (is_nan64 diff) ;;
      _ <- panic_if (is_infinite diff) ;;
      panic_if (Bltb tol diff)) tt) tt.

(** complex_mat_approx_eq.rs:69-111, with a nested second argument *)
Definition complex_mat_approx_eq (a : dmat (f64 * f64)) (b : list (list (f64 * f64))) (tol : f64) : res unit :=
  let '(m, n) := (d_nrow a, d_ncol a) in
  ' (mm, nn) <- nested_size b ;;
  _ <- panic_if (negb (m =? mm)%nat) ;;
  _ <- panic_if (negb (n =? nn)%nat) ;;
  for_range 0 m (fun i _ =>
    for_range 0 n (fun j _ =>
      x <- d_get a i j ;;
      y <- nested_at b i j ;;
      let diff_re := abs_diff (fst x) (fst y) in
      _ <- panic_if (is_nan64 diff_re) ;;
      _ <- panic_if (is_infinite diff_re) ;;
      _ <- panic_if (Bltb tol diff_re) ;;
      let diff_im := abs_diff (snd x) (snd y) in
      _ <- panic_if (is_nan64 diff_im) ;;
      _ <- panic_if (is_infinite diff_im) ;;
      panic_if (Bltb tol diff_im)) tt) tt.
