(** russell_lab/src/math: composition.rs, modulo.rs, on the bit patterns of
    IEEE 754 binary64 numbers.

    A f64 is its bit pattern `x.to_bits()`, an integer 0 <= u < 2^64, so
    `to_bits` and `from_bits` are identities.  u64 operators are the operators of
    Z on non-negative numbers: `>>` is Z.shiftr, `&` Z.land, `|` Z.lor,
    `a & !b` Z.ldiff. *)
From Coq Require Import ZArith Bool List.
From Verif Require Export Base.
Import ListNotations.
Open Scope Z_scope.

(* ------------------------------------------------------------------ *)
(** * IEEE 754 binary64 (what the hardware and `f64::` methods do) *)

Definition f_sign (u : Z) : bool := 2 ^ 63 <=? u.
Definition f_expo (u : Z) : Z := (u / 2 ^ 52) mod 2 ^ 11.
Definition f_frac (u : Z) : Z := u mod 2 ^ 52.

(** is_nan, is_infinite, is_finite, `x == 0.0` *)
Definition f_is_nan (u : Z) : bool := (f_expo u =? 2047) && negb (f_frac u =? 0).
Definition f_is_inf (u : Z) : bool := (f_expo u =? 2047) && (f_frac u =? 0).
Definition f_is_finite (u : Z) : bool := negb (f_expo u =? 2047).
Definition f_is_zero (u : Z) : bool := (f_expo u =? 0) && (f_frac u =? 0).

(** abs, unary minus *)
Definition f_abs (u : Z) : Z := u mod 2 ^ 63.
Definition f_neg (u : Z) : Z := if f_sign u then u - 2 ^ 63 else u + 2 ^ 63.

(** `a < b`, `a >= b`: false with a NaN; otherwise the order of the values,
    which is the order of the magnitudes with the sign applied *)
Definition f_key (u : Z) : Z := if f_sign u then - f_abs u else f_abs u.
Definition f_lt (a b : Z) : bool := negb (f_is_nan a) && negb (f_is_nan b) && (f_key a <? f_key b).
Definition f_ge (a b : Z) : bool := negb (f_is_nan a) && negb (f_is_nan b) && (f_key b <=? f_key a).

Definition f_infinity (s : bool) : Z := (if s then 2 ^ 63 else 0) + 2047 * 2 ^ 52.
Definition f_zero (s : bool) : Z := if s then 2 ^ 63 else 0.
Definition F_NAN : Z := 0x7ff8000000000000.

(** m / 2^k to the nearest integer, ties to even *)
Definition round_even (m k : Z) : Z :=
  if k <=? 0 then m * 2 ^ (- k)
  else
    let q := m / 2 ^ k in
    let r := m mod 2 ^ k in
    match 2 * r ?= 2 ^ k with
    | Lt => q
    | Gt => q + 1
    | Eq => if Z.even q then q else q + 1
    end.

(** the f64 nearest to (-1)^s m 2^e (m >= 0), ties to even: the significand
    is kept in units of 2^(ex-52), where ex is the exponent of the leading bit
    or that of the subnormal numbers.  A carry out of the significand moves to
    the exponent field by itself. *)
Definition f_round (s : bool) (m e : Z) : Z :=
  if m =? 0 then f_zero s
  else
    let ex := Z.max (Z.log2 m + e) (-1022) in
    let mag := (ex + 1022) * 2 ^ 52 + round_even m (ex - 52 - e) in
    if mag <? 2047 * 2 ^ 52 then f_zero s + mag else f_infinity s.

(** a finite number is (-1)^sign * [f_mant] * 2^([f_unit]) *)
Definition f_mant (u : Z) : Z := if f_expo u =? 0 then f_frac u else 2 ^ 52 + f_frac u.
Definition f_unit (u : Z) : Z := if f_expo u =? 0 then -1074 else f_expo u - 1075.

(** multiplication of a finite number by 2^k (a product with a power of two) *)
Definition f_mul_pow2 (u k : Z) : Z := f_round (f_sign u) (f_mant u) (f_unit u + k).

(** value of a finite number in units of 2^-1074 *)
Definition f_int (u : Z) : Z :=
  let m := f_mant u * 2 ^ (f_unit u + 1074) in if f_sign u then - m else m.

(** subtraction of finite numbers *)
Definition f_sub (a b : Z) : Z :=
  let d := f_int a - f_int b in
  if d =? 0 then f_zero (f_sign a && negb (f_sign b)) else f_round (d <? 0) (Z.abs d) (-1074).

(* ------------------------------------------------------------------ *)
(** * i32 arithmetic: an overflow is a panic (debug build) *)
Definition i32 (x : Z) : res Z := if (- 2 ^ 31 <=? x) && (x <? 2 ^ 31) then Ok x else Panic.

(* ------------------------------------------------------------------ *)
(** composition.rs:37-68 `float_split`.  The mask `((!0) >> 12) >> e` is
    2^(52-e) - 1. *)
Definition float_split (x : Z) : Z * Z :=
  let u := x in
  let e := Z.land (Z.shiftr u 52) 0x7ff - 0x3ff in
  if 52 <=? e then
    let integer := x in
    if (e =? 0x400) && negb (Z.shiftl u 12 mod 2 ^ 64 =? 0) then (integer, x)
    else (integer, Z.land u (2 ^ 63))
  else if e <? 0 then (Z.land u (2 ^ 63), x)
  else
    let mask := Z.shiftr (2 ^ 52 - 1) e in
    if Z.land u mask =? 0 then (x, Z.land u (2 ^ 63))
    else
      let integer := Z.ldiff u mask in
      (integer, f_sub x integer).

(** composition.rs:86-97 `float_is_neg_integer` *)
Definition float_is_neg_integer (x : Z) : bool :=
  if f_is_finite x then
    if f_lt x 0 then let '(_, xf) := float_split x in f_is_zero xf else false
  else false.

(** composition.rs:115-122 `float_is_integer` *)
Definition float_is_integer (x : Z) : bool :=
  if f_is_finite x then let '(_, xf) := float_split x in f_is_zero xf else false.

(** composition.rs:152-169 `float_decompose`.  `f64::abs(x) < f64::MIN_POSITIVE`
    compares the magnitude with 2^52 *)
Definition float_decompose (x : Z) : Z * Z :=
  if f_is_zero x || f_is_inf x || f_is_nan x then (x, 0)
  else
    let '(xx, e) := if f_lt (f_abs x) (2 ^ 52) then (f_mul_pow2 x 52, -52) else (x, 0) in
    let y := xx in
    let e := e + (Z.land (Z.shiftr y 52) 0x7ff - 0x3fe) in
    let y := Z.land y 0x800fffffffffffff in
    let y := Z.lor y 0x3fe0000000000000 in
    (y, e).

(** composition.rs:202-237 `float_compose`.  The product with 2^-53 is that of
    a finite number with a power of two. *)
Definition float_compose (mantissa exponent : Z) : res Z :=
  if f_is_zero mantissa || f_is_inf mantissa || f_is_nan mantissa then Ok mantissa
  else
    let '(frac, e) := if f_lt (f_abs mantissa) (2 ^ 52) then (f_mul_pow2 mantissa 52, -52) else (mantissa, 0) in
    exp <- i32 (exponent + e) ;;
    let x := frac in
    exp <- i32 (exp + (Z.land (Z.shiftr x 52) 0x7ff - 0x3ff)) ;;
    if exp <? -1075 then Ok (f_zero (f_sign frac))
    else if 1023 <? exp then
      if f_lt frac 0 then Ok (f_infinity true) else Ok (f_infinity false)
    else
      let '(exp, m) := if exp <? -1022 then (exp + 53, -53) else (exp, 0) in
      let x := Z.land x 0x800fffffffffffff in
      let x := Z.lor x (Z.shiftl (exp + 1023) 52) in
      Ok (f_mul_pow2 x m).

(** modulo.rs:43-49, the loop; [fuel] bounds the number of iterations *)
Fixpoint modulo_loop (fuel : nat) (y y_frac y_exp r : Z) : option (res Z) :=
  match fuel with
  | O => None
  | S fuel =>
      if f_ge r y then
        let '(r_frac, r_exp) := float_decompose r in
        let r_exp := if f_lt r_frac y_frac then r_exp - 1 else r_exp in
        match float_compose y (r_exp - y_exp) with
        | Ok t => modulo_loop fuel y y_frac y_exp (f_sub r t)
        | Err e => Some (Err e)
        | Panic => Some Panic
        end
      else Some (Ok r)
  end.

(** modulo.rs:31-55 `modulo` *)
Definition modulo (fuel : nat) (x y : Z) : option (res Z) :=
  if f_is_zero y || f_is_inf x || f_is_nan x || f_is_nan y then Some (Ok F_NAN)
  else
    let y := f_abs y in
    let '(y_frac, y_exp) := float_decompose y in
    let r := if f_lt x 0 then f_neg x else x in
    match modulo_loop fuel y y_frac y_exp r with
    | Some (Ok r) => Some (Ok (if f_lt x 0 then f_neg r else r))
    | o => o
    end.
