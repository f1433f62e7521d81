(** The logarithm of the gamma function: russell_lab/src/math/ln_gamma.rs, with its coefficients. A f64 argument is NaN, an
    infinity or a real number ([xr] of Bessel_Model); finite arithmetic is exact. *)
From Coq Require Import List Bool ZArith Reals Lra.
From Flocq Require Import IEEE754.Binary IEEE754.Bits.
From Verif Require Import Base RBase Bessel_Model Erf_Model Gamma_Model.
Import ListNotations.
Local Open Scope R_scope.

(** ln_gamma.rs:88-101 LA, even positions *)
Definition LA_even : list R :=
  [772156649015328655494 / 10 ^ 22;
   673523010531292681824 / 10 ^ 22;
   738555086081402883957 / 10 ^ 23;
   119270763183362067845 / 10 ^ 23;
   220862790713908385557 / 10 ^ 24;
   252144565451257326939 / 10 ^ 25].
(** ln_gamma.rs:88-101 LA, odd positions *)
Definition LA_odd : list R :=
  [322467033424113591611 / 10 ^ 21;
   205808084325167332806 / 10 ^ 22;
   289051383673415629091 / 10 ^ 23;
   510069792153511336608 / 10 ^ 24;
   108011567247583939954 / 10 ^ 24;
   44864094961891516015 / 10 ^ 24].
(** ln_gamma.rs:103-111 *)
Definition LR : list R :=
  [1;
   139200533467621045958 / 10 ^ 20;
   721935547567138069525 / 10 ^ 21;
   171933865632803078993 / 10 ^ 21;
   186459191715652901344 / 10 ^ 22;
   777942496381893596434 / 10 ^ 24;
   732668430744625636189 / 10 ^ 26].
(** ln_gamma.rs:113-121 *)
Definition LS : list R :=
  [- (772156649015328655494 / 10 ^ 22);
   214982415960608852501 / 10 ^ 21;
   325778796408930981787 / 10 ^ 21;
   146350472652464452805 / 10 ^ 21;
   26642270303363860956 / 10 ^ 21;
   184028451407337715652 / 10 ^ 23;
   319475326584100867617 / 10 ^ 25].
(** ln_gamma.rs:123-139 LT, every third from 0 *)
Definition LT_0 : list R :=
  [483836122723810047042 / 10 ^ 21;
   - (327885410759859649565 / 10 ^ 22);
   610053870246291332635 / 10 ^ 23;
   - (140346469989232843813 / 10 ^ 23);
   315632070903625950361 / 10 ^ 24].
(** ln_gamma.rs:123-139 LT, every third from 1 *)
Definition LT_1 : list R :=
  [- (147587722994593911752 / 10 ^ 21);
   179706750811820387126 / 10 ^ 22;
   - (36845201678113825676 / 10 ^ 22);
   881081882437654011382 / 10 ^ 24;
   - (312754168375120860518 / 10 ^ 24)].
(** ln_gamma.rs:123-139 LT, every third from 2 *)
Definition LT_2 : list R :=
  [646249402391333854778 / 10 ^ 22;
   - (10314224129834143745 / 10 ^ 21);
   22596478090061247225 / 10 ^ 22;
   - (538595305356740546715 / 10 ^ 24);
   335529192635519073543 / 10 ^ 24].
(** ln_gamma.rs:141-148 *)
Definition LU : list R :=
  [- (772156649015328655494 / 10 ^ 22);
   632827064025093366517 / 10 ^ 21;
   145492250137234768737 / 10 ^ 20;
   977717527963372745603 / 10 ^ 21;
   228963728064692451092 / 10 ^ 21;
   133810918536787660377 / 10 ^ 22].
(** ln_gamma.rs:150-157 *)
Definition LV : list R :=
  [1;
   245597793713041134822 / 10 ^ 20;
   212848976379893395361 / 10 ^ 20;
   769285150456672783825 / 10 ^ 21;
   104222645593369134254 / 10 ^ 21;
   32170924228242391181 / 10 ^ 22].
(** ln_gamma.rs:159-167 LW *)
Definition LW_0 : R := 418938533204672725052 / 10 ^ 21.
(** the other coefficients of LW *)
Definition LW : list R :=
  [833333333333329678849 / 10 ^ 22;
   - (27777777772877553647 / 10 ^ 22);
   7936505586430195585 / 10 ^ 22;
   - (595187557450339963135 / 10 ^ 24);
   836339918996282139126 / 10 ^ 24;
   - (163092934096575273989 / 10 ^ 23)].
(** ln_gamma.rs:169-190 *)
Definition Y_MIN : R := 1461632144968362245 / 10 ^ 18.
Definition TC : R := 146163214496836224576 / 10 ^ 20.
Definition TF : R := - (121486290535849611461 / 10 ^ 21).
Definition TT : R := - (363867699703950536541 / 10 ^ 38).
Definition TINY : R := / 2 ^ 70.
Definition TWO_52 : R := 2 ^ 52.
Definition TWO_53 : R := 2 ^ 53.
Definition TWO_58 : R := 2 ^ 58.

(** ln_gamma.rs:382 [1 & f64::to_bits(z)] *)
Definition low_bit (z : binary64) : Z := Z.land 1 (bits_of_b64 z).

(** ln_gamma.rs:359-399 `sin_pi_times_neg_x_given_abs_x`, for a finite argument (the assertion abs_x >= 0 is Panic). The call of
    [modulo] is the exact remainder (property of `modulo`); [1 & to_bits(xx + 2^52)] is the parity of the integer [xx]
    (proved: C107_low_bit). *)
Definition sin_pi_neg (abs_x : R) : res R :=
  if negb (Rleb 0 abs_x) then Panic
  else if Rltb abs_x (1 / 4) then Ok (- sin (PI * abs_x))
  else
    let xx := abs_x in
    let z := floorR xx in
    let '(xx, n) :=
      if negb (Reqb z xx) then
        let xx := xx - 2 * floorR (xx / 2) in (xx, as_i32 (xx * 4))
      else if Rleb TWO_53 xx then (0, 0%Z)
      else
        let n := (if Z.odd (Int_part xx) then 1 else 0)%Z in (IZR n, Z.shiftl n 2) in
    if (n =? 0)%Z then Ok (- sin (PI * xx))
    else if (n =? 1)%Z || (n =? 2)%Z then Ok (- cos (PI * (1 / 2 - xx)))
    else if (n =? 3)%Z || (n =? 4)%Z then Ok (- sin (PI * (1 - xx)))
    else if (n =? 5)%Z || (n =? 6)%Z then Ok (cos (PI * (xx - 3 / 2)))
    else Ok (- sin (PI * (xx - 2))).

(** ln_gamma.rs:298-303, i == 0 (the lists are the even and the odd coefficients) *)
Definition approx0 (y : R) : R :=
  let z := y * y in
  let p1 := horner LA_even z in
  let p2 := z * horner LA_odd z in
  let p := y * p1 + p2 in
  p - 1 / 2 * y.
(** ln_gamma.rs:304-311, i == 1 *)
Definition approx1 (y : R) : R :=
  let z := y * y in
  let w := z * y in
  let p1 := horner LT_0 w in
  let p2 := horner LT_1 w in
  let p3 := horner LT_2 w in
  let p := z * p1 - (TT - w * (p2 + y * p3)) in
  TF + p.
(** ln_gamma.rs:312-316, i == 2 *)
Definition approx2 (y : R) : R :=
  let p1 := y * horner LU y in
  let p2 := horner LV y in
  - (1 / 2) * y + p1 / p2.

(** ln_gamma.rs:271-316: 0 < xx < 2 *)
Definition below2 (xx : R) : R :=
  let '(lgamma, y, i) :=
    if Rleb xx (9 / 10) then
      if Rleb (Y_MIN - 1 + 27 / 100) xx then (- ln xx, 1 - xx, 0%nat)
      else if Rleb (Y_MIN - 1 - 27 / 100) xx then (- ln xx, xx - (TC - 1), 1%nat)
      else (- ln xx, xx, 2%nat)
    else
      if Rleb (Y_MIN + 27 / 100) xx then (0, 2 - xx, 0%nat)
      else if Rleb (Y_MIN - 27 / 100) xx then (0, xx - TC, 1%nat)
      else (0, xx - 1, 2%nat) in
  match i with
  | 0%nat => lgamma + approx0 y
  | 1%nat => lgamma + approx1 y
  | _ => lgamma + approx2 y
  end.
(** ln_gamma.rs:317-340: 2 <= xx < 8 *)
Definition below8 (xx : R) : R :=
  let i := as_i32 xx in
  let y := xx - IZR i in
  let p := y * horner LS y in
  let q := horner LR y in
  let lgamma := 1 / 2 * y + p / q in
  let z := 1 in
  let z := if (7 <=? i)%Z then z * (y + 6) else z in
  let z := if (6 <=? i)%Z then z * (y + 5) else z in
  let z := if (5 <=? i)%Z then z * (y + 4) else z in
  let z := if (4 <=? i)%Z then z * (y + 3) else z in
  if (3 <=? i)%Z then
    let z := z * (y + 2) in lgamma + ln z
  else lgamma.
(** ln_gamma.rs:341-347: 8 <= xx < 2^58; the list LW is split after its first coefficient *)
Definition below58 (xx : R) : R :=
  let t := ln xx in
  let z := 1 / xx in
  let y := z * z in
  let w := LW_0 + z * horner LW y in
  (xx - 1 / 2) * (t - 1) + w.

(** ln_gamma.rs:223-356 `ln_gamma` *)
Definition ln_gamma (x : xr) : res (xr * Z) :=
  match x with
  | NaN => Ok (NaN, 1%Z)
  | Inf s => Ok (Inf s, 1%Z)
  | Fin x =>
    if Reqb x 0 then Ok (Inf false, 1%Z)
    else
      let '(xx, negative) := if Rltb x 0 then (- x, true) else (x, false) in
      if Rltb xx TINY then Ok (Fin (- ln xx), if negative then (-1)%Z else 1%Z)
      else
        (* None: return (INFINITY, sign) *)
        bind (if (negative : bool) then
                if Rleb TWO_52 xx then Ok None
                else
                  bind (sin_pi_neg xx) (fun t =>
                  if Reqb t 0 then Ok None
                  else Ok (Some (ln (PI / Rabs (t * xx)), if Rltb t 0 then (-1)%Z else 1%Z)))
              else Ok (Some (0, 1%Z))) (fun adj =>
        match adj with
        | None => Ok (Inf false, 1%Z)
        | Some (n_adj, sign) =>
          if Reqb xx 1 || Reqb xx 2 then Ok (Fin 0, sign)
          else
            let lgamma :=
              if Rltb xx 2 then below2 xx
              else if Rltb xx 8 then below8 xx
              else if Rltb xx TWO_58 then below58 xx
              else xx * (ln xx - 1) in
            let lgamma := if negative then n_adj - lgamma else lgamma in
            Ok (Fin lgamma, sign)
        end)
  end.
