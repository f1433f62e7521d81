(** Model of the Bessel functions of integer order and of the powers of the imaginary unit of russell_lab.
    A f64 argument is a NaN, an infinity or a real number; the arithmetic on real numbers is exact, the constants
    SQRT_PI and PI are the real numbers.  The rational approximations (tables of coefficients) are unknown
    functions of the argument; every branch, recurrence, loop, sign and i32 operation of the code is modelled. *)
From Coq Require Import Reals.
From Coquelicot Require Import Complex.
From Verif Require Import Base RBase Float_Model.
Local Open Scope R_scope.

Local Notation C := Complex.C.

(** a f64 value: NaN, an infinity (true: negative) or a finite number *)
Inductive xr := NaN | Inf (neg : bool) | Fin (r : R).
Definition xneg (x : xr) : xr := match x with NaN => NaN | Inf s => Inf (negb s) | Fin r => Fin (- r) end.

(** bessel_0.rs:27-29, bessel_1.rs:146, bessel_n.rs:46-50 *)
Definition two_m27 : R := / 2 ^ 27.
Definition two_m13 : R := / 2 ^ 13.
Definition two_129 : R := 2 ^ 129.
Definition two_m54 : R := / 2 ^ 54.
Definition two_m29 : R := / 2 ^ 29.
Definition two_302 : R := 2 ^ 302.

Section Bessel.
(** bessel_0.rs:131-132 and 248-249: the quotients r/s and u/v of j0 and y0 *)
Variables rs0 uv0 : R -> R.
(** bessel_1.rs:133-136 and 251-252: the quotients of j1 (r / s with r = xx z (...)) and y1 *)
Variables rs1 uv1 : R -> R.
(** bessel_0.rs `pzero`, `qzero`; bessel_1.rs `pone`, `qone` *)
Variables pzero qzero pone qone : R -> R.
(** bessel_0.rs:147 U00 *)
Variable u00 : R.
(** f64::MAX / 2 *)
Variable half_max : R.
(** bessel_n.rs:55 LOWER_X_TO_OVERFLOW_EXP *)
Variable lower_exp : R.

(* ------------------------------------------------------------------ *)
(** * Orders zero and one *)

(** bessel_0.rs:102-115, 218-230: the pair (ss, cc) *)
Definition phase0 (x : R) : R * R :=
  let s := sin x in let c := cos x in
  let ss := s - c in let cc := s + c in
  if Rltb x half_max then
    let z := - cos (x + x) in
    if Rltb (s * c) 0 then (ss, z / ss) else (z / cc, cc)
  else (ss, cc).
(** bessel_1.rs:99-111, 221-233 *)
Definition phase1 (x : R) : R * R :=
  let s := sin x in let c := cos x in
  let ss := - s - c in let cc := s - c in
  if Rltb x half_max then
    let z := cos (x + x) in
    if Rltb 0 (s * c) then (ss, z / ss) else (z / cc, cc)
  else (ss, cc).

(** bessel_0.rs:62-141 `bessel_j0` *)
Definition bessel_j0 (x : xr) : xr :=
  match x with
  | NaN => NaN
  | Inf _ => Fin 0
  | Fin x =>
    if Reqb x 0 then Fin 1
    else
      let x := Rabs x in
      if Rleb 2 x then
        let '(ss, cc) := phase0 x in
        if Rltb two_129 x then Fin (1 / sqrt PI * cc / sqrt x)
        else Fin (1 / sqrt PI * (pzero x * cc - qzero x * ss) / sqrt x)
      else if Rltb x two_m13 then
        if Rltb x two_m27 then Fin 1 else Fin (1 - 1 / 4 * x * x)
      else
        let z := x * x in
        if Rltb x 1 then Fin (1 + z * (- (1 / 4) + rs0 z))
        else let u := 1 / 2 * x in Fin ((1 + u) * (1 - u) + z * rs0 z)
  end.

(** bessel_0.rs:178-250 `bessel_y0`; the last line reads j0(x) of a finite x, which is finite *)
Definition bessel_y0 (x : xr) : xr :=
  match x with
  | NaN => NaN
  | Inf s => if s then NaN else Fin 0
  | Fin x =>
    if Rltb x 0 then NaN
    else if Reqb x 0 then Inf true
    else if Rleb 2 x then
      let '(ss, cc) := phase0 x in
      if Rltb two_129 x then Fin (1 / sqrt PI * ss / sqrt x)
      else Fin (1 / sqrt PI * (pzero x * ss + qzero x * cc) / sqrt x)
    else if Rleb x two_m27 then Fin (u00 + 2 / PI * ln x)
    else match bessel_j0 (Fin x) with
         | Fin j => Fin (uv0 (x * x) + 2 / PI * j * ln x)
         | _ => NaN
         end
  end.

(** bessel_1.rs:62-143 `bessel_j1` *)
Definition bessel_j1 (x : xr) : xr :=
  match x with
  | NaN => NaN
  | Inf _ => Fin 0
  | Fin x =>
    if Reqb x 0 then Fin 0
    else
      let '(xx, negative) := if Rltb x 0 then (- x, true) else (x, false) in
      if Rleb 2 xx then
        let '(ss, cc) := phase1 xx in
        let z := if Rltb two_129 xx then 1 / sqrt PI * cc / sqrt xx
                 else 1 / sqrt PI * (pone xx * cc - qone xx * ss) / sqrt xx in
        if negative then Fin (- z) else Fin z
      else if Rltb xx two_m27 then Fin (1 / 2 * xx)
      else
        let z := 1 / 2 * xx + xx * rs1 (xx * xx) in
        if negative then Fin (- z) else Fin z
  end.

(** bessel_1.rs:181-254 `bessel_y1` *)
Definition bessel_y1 (x : xr) : xr :=
  match x with
  | NaN => NaN
  | Inf s => if s then NaN else Fin 0
  | Fin x =>
    if Rltb x 0 then NaN
    else if Reqb x 0 then Inf true
    else if Rleb 2 x then
      let '(ss, cc) := phase1 x in
      if Rltb two_129 x then Fin (1 / sqrt PI * ss / sqrt x)
      else Fin (1 / sqrt PI * (pone x * ss + qone x * cc) / sqrt x)
    else if Rleb x two_m54 then Fin (- (2 / PI) / x)
    else match bessel_j1 (Fin x) with
         | Fin j => Fin (x * uv1 (x * x) + 2 / PI * (j * ln x - 1 / x))
         | _ => NaN
         end
  end.

(* ------------------------------------------------------------------ *)
(** * Integer order *)

(** the finite value of an order-zero or order-one function at a finite positive argument *)
Definition fin (x : xr) : R := match x with Fin r => r | _ => 0 end.

(** `for i in 1..nn { b = b * ((i + i) / x) - a; a = old b }`: bessel_n.rs:138-142 and 342-349
    (the break of the latter on an infinite b has no counterpart here: the numbers are finite) *)
Definition forward (nn : Z) (x a b : R) : res (R * R) :=
  for_range 1 (Z.to_nat nn) (fun i '(a, b) =>
    ii <- i32 (Z.of_nat i + Z.of_nat i) ;;
    Ok (b, b * (IZR ii / x) - a)) (a, b).

(** bessel_n.rs:152-159: (x/2)^n / n! *)
Definition first_term (nn : Z) (xx : R) : res R :=
  let temp := xx * (1 / 2) in
  ' (a, b) <- for_range 2 (Z.to_nat (nn + 1)) (fun i '(a, b) => Ok (a * INR i, b * temp)) (1, temp) ;;
  Ok (b / a).

(** bessel_n.rs:197-203: the loop that counts the terms of the continued fraction; [Err] if the fuel runs out *)
Fixpoint count_terms (fuel : nat) (h : R) (q0 z q1 : R) (k : Z) : res Z :=
  if Rltb q1 (10 ^ 9) then
    match fuel with
    | O => Err "fuel"
    | S fuel => k' <- i32 (k + 1) ;; count_terms fuel h q1 (z + h) ((z + h) * q1 - q0) k'
    end
  else Ok k.

(** bessel_n.rs:205-210: the continued fraction, from the last term to the first *)
Fixpoint fraction (fuel : nat) (xx : R) (m i : Z) (t : R) : R :=
  if (m <=? i)%Z then
    match fuel with
    | O => t
    | S fuel => fraction fuel xx m (i - 2) (1 / (IZR i / xx - t))
    end
  else t.

(** bessel_n.rs:223-246: the backward recurrence on (a, b, t), with rescaling if [scale] *)
Fixpoint backward (fuel : nat) (xx : R) (scale : bool) (i : Z) (a b t : R) : R * R * R :=
  if (0 <? i)%Z then
    match fuel with
    | O => (a, b, t)
    | S fuel =>
      let di := IZR (i + i) in
      let '(b, a) := (b * di / xx - a, b) in
      if scale && Rltb (10 ^ 100) b then backward fuel xx scale (i - 1) (a / b) 1 (t / b)
      else backward fuel xx scale (i - 1) a b t
    end
  else (a, b, t).

(** bessel_n.rs:77-256 `bessel_jn` *)
Definition bessel_jn (fuel : nat) (n : Z) (x : xr) : res xr :=
  match x with
  | NaN => Ok NaN
  | Inf _ => Ok (Fin 0)
  | Fin x =>
    if (n =? 0)%Z then Ok (bessel_j0 (Fin x))
    else if Reqb x 0 then Ok (Fin 0)
    else
      ' (nn, xx) <- (if (n <? 0)%Z then nn <- i32 (- n) ;; Ok (nn, - x) else Ok (n, x)) ;;
      if (nn =? 1)%Z then Ok (bessel_j1 (Fin xx))
      else
        let '(xx, negative) := if Rltb xx 0 then (- xx, (Z.land nn 1 =? 1)%Z) else (xx, false) in
        b <- (if Rleb (IZR nn) xx then
                if Rleb two_302 xx then
                  let s := sin xx in let c := cos xx in
                  let temp := match Z.land nn 3 with
                              | 0%Z => c + s
                              | 1%Z => - c + s
                              | 2%Z => - c - s
                              | _ => c - s
                              end in
                  Ok (1 / sqrt PI * temp / sqrt xx)
                else
                  ' (_, b) <- forward nn xx (fin (bessel_j0 (Fin xx))) (fin (bessel_j1 (Fin xx))) ;; Ok b
              else if Rltb xx two_m29 then
                if (33 <? nn)%Z then Ok 0 else first_term nn xx
              else
                m <- i32 (nn + nn) ;;
                let w := IZR m / xx in
                let h := 2 / xx in
                let z := w + h in
                k <- count_terms fuel h w z (w * z - 1) 1 ;;
                i0 <- i32 (nn + k) ;; i <- i32 (2 * i0) ;;
                let t := fraction (S (Z.to_nat k)) xx m i 0 in
                let x_critical := IZR nn * ln (Rabs (2 * IZR nn / xx)) in
                let '(_, b, t) := backward (Z.to_nat nn) xx (negb (Rltb x_critical lower_exp)) (nn - 1) t 1 t in
                Ok (t * fin (bessel_j0 (Fin xx)) / b)) ;;
        if negative then Ok (Fin (- b)) else Ok (Fin b)
  end.

(** bessel_n.rs:281-357 `bessel_yn` *)
Definition bessel_yn (n : Z) (x : xr) : res xr :=
  match x with
  | NaN => Ok NaN
  | Inf s => Ok (if s then NaN else Fin 0)
  | Fin x =>
    if Rltb x 0 then Ok NaN
    else if (n =? 0)%Z then Ok (bessel_y0 (Fin x))
    else if Reqb x 0 then
      if (n <? 0)%Z && (Z.land n 1 =? 1)%Z then Ok (Inf false) else Ok (Inf true)
    else
      ' (nn, negative) <- (if (n <? 0)%Z then nn <- i32 (- n) ;; Ok (nn, (Z.land nn 1 =? 1)%Z) else Ok (n, false)) ;;
      if (nn =? 1)%Z then
        if negative then Ok (xneg (bessel_y1 (Fin x))) else Ok (bessel_y1 (Fin x))
      else
        b <- (if Rleb two_302 x then
                let s := sin x in let c := cos x in
                let temp := match Z.land nn 3 with
                            | 0%Z => s - c
                            | 1%Z => - s - c
                            | 2%Z => - s + c
                            | _ => s + c
                            end in
                Ok (1 / sqrt PI * temp / sqrt x)
              else
                ' (_, b) <- forward nn x (fin (bessel_y0 (Fin x))) (fin (bessel_y1 (Fin x))) ;; Ok b) ;;
        if negative then Ok (Fin (- b)) else Ok (Fin b)
  end.

(* ------------------------------------------------------------------ *)
(** * Modified functions *)

(** bessel_mod.rs:33 and 83: the quotients of `poly` for |x| < 15, as functions of x^2 *)
Variables i0_small i1_small : R -> R.
(** bessel_mod.rs:41-50 `bessel_i0_scaled`, `bessel_i1_scaled` *)
Variables i0_scaled i1_scaled : R -> R.
(** bessel_mod.rs:190-243: `bessel_k0` and `bessel_k1` of a positive finite argument *)
Variables k0 k1 : R -> R.
(** `f64::is_finite` of the rounded value of a real number *)
Variable fits : R -> bool.
(** the exponent of `float_decompose`: only its comparison with 512 is used *)
Variable exponent : R -> Z.
(** 8 * f64::MIN_POSITIVE *)
Variable tiny : R.
(** `as usize` of a non-negative number *)
Definition to_usize (x : R) : nat := Z.to_nat (Int_part x).

(** bessel_mod.rs:23-38 `bessel_i0`, finite argument *)
Definition bessel_i0 (x : R) : R :=
  if Reqb x 0 then 1
  else
    let ax := Rabs x in
    if Rltb ax 15 then i0_small (x * x)
    else let e := exp (ax / 2) in (e * i0_scaled ax) * e.
(** bessel_mod.rs:72-88 `bessel_i1`, finite argument *)
Definition bessel_i1 (x : R) : R :=
  if Reqb x 0 then 0
  else
    let ax := Rabs x in
    if Rltb ax 15 then x * i1_small (x * x)
    else
      let e := exp (ax / 2) in
      let ans := (e * i1_scaled ax) * e in
      if Rltb 0 x then ans else - ans.

(** bessel_mod.rs:137-153: the loop `while j > 0` on (bip, bi, ans) *)
Fixpoint miller (n : nat) (tox : R) (j : nat) (bip bi ans : R) : R * R * R :=
  match j with
  | O => (bip, bi, ans)
  | S j' =>
    let bim := bip + INR j * tox * bi in
    let '(bip, bi) := (bi, bim) in
    let '(bip, bi, ans) :=
      if (512 <? exponent bi)%Z then (bip * / 2 ^ 512, bi * / 2 ^ 512, ans * / 2 ^ 512) else (bip, bi, ans) in
    let ans := if (j =? n)%nat then bip else ans in
    miller n tox j' bip bi ans
  end.
(** bessel_mod.rs:134-135: the order at which the recurrence starts *)
Definition miller_start (n : nat) (x : R) : nat :=
  let m := Nat.max n (to_usize (Rmin (Rabs x) 1400)) in
  (2 * (m + to_usize (sqrt (200 * INR m))))%nat.
(** bessel_mod.rs:119-167 `bessel_in`, finite argument *)
Definition bessel_in (n : nat) (x : R) : R :=
  if (n =? 0)%nat then bessel_i0 x
  else if (n =? 1)%nat then bessel_i1 x
  else if Rleb (x * x) tiny then 0
  else
    let tox := 2 / Rabs x in
    let '(_, bi, ans) := miller n tox (miller_start n x) 0 1 0 in
    let i0 := bessel_i0 x in
    let ans :=
      if fits i0 || Rltb 1400 (Rabs x) then ans * (i0 / bi)
      else let e := exp (Rabs x / 2) in (ans / bi * e) * (i0_scaled (Rabs x) * e) in
    if Rltb x 0 && Nat.odd n then - ans else ans.

(** bessel_mod.rs:266-287 `bessel_kn`, argument not infinite *)
Definition bessel_kn (n : Z) (x : xr) : res xr :=
  match x with
  | NaN => Ok NaN
  | Inf s => if s then Ok NaN else Err "not modelled"
  | Fin x =>
    if Rltb x 0 then Ok NaN
    else if Reqb x 0 then Ok (Inf false)
    else if (n =? 0)%Z then Ok (Fin (k0 x))
    else if (n =? 1)%Z then Ok (Fin (k1 x))
    else
      let tox := 2 / x in
      ' (_, bk) <- for_range 1 (Z.to_nat n) (fun j '(bkm, bk) => Ok (bk, bkm + INR j * tox * bk)) (k0 x, k1 x) ;;
      Ok (Fin bk)
  end.

End Bessel.

(* ------------------------------------------------------------------ *)
(** * Powers of the imaginary unit *)

(** math/complex.rs:40-58 `i_pow_n` *)
Definition i_pow_n (n : Z) : res C :=
  if (n =? 0)%Z then Ok (1, 0)
  else if (0 <? n)%Z then
    Ok match Z.rem n 4 with
       | 1%Z => (0, 1)
       | 2%Z => (-1, 0)
       | 3%Z => (0, -1)
       | _ => (1, 0)
       end
  else
    m <- i32 (- n) ;;
    Ok match Z.rem m 4 with
       | 1%Z => (0, -1)
       | 2%Z => (-1, 0)
       | 3%Z => (0, 1)
       | _ => (1, 0)
       end.
(** math/complex.rs:97-117 `x_times_i_pow_n`; `f64::powi` is the integer power *)
Definition x_times_i_pow_n (x : R) (n : Z) : res C :=
  if (n =? 0)%Z then Ok (1, 0)
  else if (0 <? n)%Z then
    let xn := powerRZ x n in
    Ok match Z.rem n 4 with
       | 1%Z => (0, xn)
       | 2%Z => (- xn, 0)
       | 3%Z => (0, - xn)
       | _ => (xn, 0)
       end
  else
    let xn := powerRZ x n in
    m <- i32 (- n) ;;
    Ok match Z.rem m 4 with
       | 1%Z => (0, - xn)
       | 2%Z => (- xn, 0)
       | 3%Z => (0, xn)
       | _ => (xn, 0)
       end.
