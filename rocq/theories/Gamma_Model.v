(** The gamma and beta functions: russell_lab/src/math/gamma.rs and beta.rs. A f64 argument is NaN, an infinity or a real
    number ([xr] of Bessel_Model); finite arithmetic is exact. The sign of a zero is not modelled (gamma(-0.0) is -Inf in the code). *)
From Coq Require Import List Bool ZArith Lia Reals Lra.
From Verif Require Import Base RBase Bessel_Model.
Import ListNotations.
Local Open Scope R_scope.

(** f64::floor on finite numbers *)
Definition floorR (x : R) : R := IZR (Int_part x).
(** functions.rs: `float_is_neg_integer` on finite numbers *)
Definition is_neg_integer (x : R) : bool := Rltb x 0 && Reqb x (floorR x).
(** [x as i32] on finite numbers: truncated and saturated *)
Definition trunc (x : R) : Z := if Rltb x 0 then (- Int_part (- x))%Z else Int_part x.
Definition as_i32 (x : R) : Z := Z.max (- 2 ^ 31) (Z.min (2 ^ 31 - 1) (trunc x)).

(* ------------------------------------------------------------------ *)
(** * gamma.rs *)
Section Gamma.
(** gamma.rs:25-52, the polynomials: [core y] is P(y)/Q(y), [gs w] the value with the coefficients GS *)
Variables core gs : R -> R.
(** constants.rs EULER, gamma.rs:54 SQRT_TWO_PI (any values) *)
Variables euler sqrt_two_pi : R.
(** gamma.rs:56 *)
Definition max_stirling : R := 14301608 / 100000.

(** gamma.rs:65-82 `stirling`; None is the pair (INFINITY, 1) *)
Definition stirling (x : R) : option (R * R) :=
  if Rltb 200 x then None
  else
    let w := 1 / x in
    let w := 1 + w * gs w in
    let y1 := exp x in
    let y2 := 1 in
    let '(y1, y2) :=
      if Rltb max_stirling x then
        let v := Rpower x (1 / 2 * x - 1 / 4) in (v, v / y1)
      else (Rpower x (x - 1 / 2) / y1, y2) in
    Some (y1, sqrt_two_pi * w * y2).

(** gamma.rs:189-199: the last loop and the rational function *)
Fixpoint reduce2 (fuel : nat) (xx z : R) : option xr :=
  match fuel with
  | O => None
  | S fuel =>
    if Rltb xx 2 then
      if Rltb xx (/ 10 ^ 9) then
        if Reqb xx 0 then Some (Inf false) else Some (Fin (z / ((1 + euler * xx) * xx)))
      else reduce2 fuel (xx + 1) (z / xx)
    else if Reqb xx 2 then Some (Fin z)
    else Some (Fin (z * core (xx - 2)))
  end.
(** gamma.rs:177-187: the loop for negative arguments *)
Fixpoint reduce1 (fuel : nat) (xx z : R) : option xr :=
  match fuel with
  | O => None
  | S fuel =>
    if Rltb xx 0 then
      if Rltb (- / 10 ^ 9) xx then
        if Reqb xx 0 then Some (Inf false) else Some (Fin (z / ((1 + euler * xx) * xx)))
      else reduce1 fuel (xx + 1) (z / xx)
    else reduce2 fuel xx z
  end.
(** gamma.rs:172-175: the loop for large arguments *)
Fixpoint reduce0 (fuel : nat) (xx z : R) : option xr :=
  match fuel with
  | O => None
  | S fuel => if Rleb 3 xx then reduce0 fuel (xx - 1) (z * (xx - 1)) else reduce1 fuel xx z
  end.

(** gamma.rs:118-208 `gamma`. None: the fuel ran out (proved not to happen). For large negative arguments the two ways
    of dividing (gamma.rs:159-163) are the same in exact arithmetic. *)
Definition gamma (x : xr) : option xr :=
  match x with
  | NaN => Some NaN
  | Inf true => Some NaN
  | Inf false => Some (Inf false)
  | Fin x =>
    if is_neg_integer x then Some NaN
    else if Reqb x 0 then Some (Inf false)
    else
      let q := Rabs x in
      let p := Int_part q in
      if Rltb 33 q then
        if Rleb 0 x then
          match stirling x with None => Some (Inf false) | Some (y1, y2) => Some (Fin (y1 * y2)) end
        else
          let sign_gam := if Z.even p then -1 else 1 in
          let z := q - IZR p in
          let z := if Rltb (1 / 2) z then q - IZR (p + 1) else z in
          let z := q * sin (PI * z) in
          if Reqb z 0 then Some (Inf (Rltb sign_gam 0))
          else
            match stirling q with
            | None => Some (Fin (sign_gam * 0))
            | Some (sq1, sq2) => Some (Fin (sign_gam * (PI / (Rabs z * sq1 * sq2))))
            end
      else reduce0 80 x 1
  end.
End Gamma.

(* ------------------------------------------------------------------ *)
(** * beta.rs *)
(** arithmetic of f64 with infinities (no signed zeros, no overflow of finite results) *)
Definition xsgn (x : xr) : R := match x with NaN => 0 | Inf s => if s then -1 else 1 | Fin r => if Rltb r 0 then -1 else if Rltb 0 r then 1 else 0 end.
Definition xabs (x : xr) : xr := match x with NaN => NaN | Inf _ => Inf false | Fin r => Fin (Rabs r) end.
Definition xadd (x y : xr) : xr :=
  match x, y with
  | NaN, _ | _, NaN => NaN
  | Inf s, Inf t => if Bool.eqb s t then Inf s else NaN
  | Inf s, _ => Inf s
  | _, Inf t => Inf t
  | Fin a, Fin b => Fin (a + b)
  end.
Definition xsub (x y : xr) : xr := xadd x (xneg y).
Definition xmul (x y : xr) : xr :=
  match x, y with
  | NaN, _ | _, NaN => NaN
  | Fin a, Fin b => Fin (a * b)
  | _, _ => let s := xsgn x * xsgn y in if Reqb s 0 then NaN else Inf (Rltb s 0)
  end.
Definition xdiv (x y : xr) : xr :=
  match x, y with
  | NaN, _ | _, NaN => NaN
  | Inf _, Inf _ => NaN
  | Fin a, Inf _ => Fin 0
  | Inf s, Fin b => Inf (xorb s (Rltb b 0))
  | Fin a, Fin b => if Reqb b 0 then (if Reqb a 0 then NaN else Inf (Rltb a 0)) else Fin (a / b)
  end.
Definition xltb (x y : xr) : bool :=
  match x, y with
  | NaN, _ | _, NaN => false
  | Inf s, Inf t => s && negb t
  | Inf s, Fin _ => s
  | Fin _, Inf t => negb t
  | Fin a, Fin b => Rltb a b
  end.
Definition xexp (x : xr) : xr := match x with NaN => NaN | Inf true => Fin 0 | Inf false => Inf false | Fin r => Fin (exp r) end.

Section Beta.
(** the functions `gamma` and `ln_gamma` (value and sign), any implementation, on finite arguments *)
Variable gam : R -> xr.
Variable lgam : R -> xr * Z.

(** beta.rs:23-27 *)
Definition gamma_max : R := 171624376956302725 / 10 ^ 15.
Definition ln_max : R := 709782712893383996732 / 10 ^ 18.
Definition asymptotic_factor : R := 10 ^ 6.

(** beta.rs:313-320 `ln_beta_asymptotic` *)
Definition ln_beta_asymptotic (a b : R) : xr * Z :=
  let '(r, sign) := lgam b in
  let r := xsub r (Fin (b * ln a)) in
  let r := xadd r (Fin (b * (1 - b) / (2 * a))) in
  let r := xadd r (Fin (b * (1 - b) * (1 - 2 * b) / (12 * a * a))) in
  let r := xadd r (Fin (- b * b * (1 - b) * (1 - b) / (12 * a * a * a))) in
  (r, sign).

(** beta.rs:158-174: the quotient of gamma functions *)
Definition gamma_identity (aa bb cc : R) : xr :=
  let gc := gam cc in
  let ga := gam aa in
  let gb := gam bb in
  if xltb (xabs (xsub (xabs gb) (xabs gc))) (xabs (xsub (xabs ga) (xabs gc)))
  then xmul (xdiv gb gc) ga
  else xmul (xdiv ga gc) gb.

(** beta.rs:120-175: `beta` after the non-positive integers have been handled *)
Definition beta_main (a b : R) : xr :=
  let '(aa, bb) := if Rltb (Rabs a) (Rabs b) then (b, a) else (a, b) in
  if Rltb (asymptotic_factor * Rabs bb) (Rabs aa) && Rltb asymptotic_factor aa then
    let '(ll, sign) := ln_beta_asymptotic aa bb in xmul (Fin (IZR sign)) (xexp ll)
  else
    let cc := aa + bb in
    if Rltb gamma_max (Rabs cc) || Rltb gamma_max (Rabs aa) || Rltb gamma_max (Rabs bb) then
      let '(la, sign_la) := lgam aa in
      let '(lb, sign_lb) := lgam bb in
      let '(lc, sign_lc) := lgam cc in
      let sign := (sign_la * sign_lb * sign_lc)%Z in
      let ll := xsub (xadd la lb) lc in
      if xltb (Fin ln_max) ll then xmul (Fin (IZR sign)) (Inf false)
      else xmul (Fin (IZR sign)) (xexp ll)
    else if is_neg_integer cc then Fin 0
    else gamma_identity aa bb cc.

(** beta.rs:86-175 `beta` on finite arguments and beta.rs:288-296 `beta_negative_integer`, which call each other.
    None: the fuel ran out (proved not to happen). *)
Fixpoint beta_rec (fuel : nat) (a b : R) : option xr :=
  match fuel with
  | O => None
  | S fuel =>
    let negative_integer (a_int b : R) : option xr :=
      let b_int := IZR (as_i32 b) in
      if Reqb b b_int && Rltb 0 (1 - a_int - b) then
        let sign := if (Z.rem (as_i32 b_int) 2 =? 0)%Z then 1 else -1 in
        option_map (xmul (Fin sign)) (beta_rec fuel (1 - a_int - b) b)
      else Some (Inf false) in
    if Rleb a 0 && Reqb a (floorR a) then
      if Reqb a (IZR (as_i32 a)) then negative_integer a b else Some (Inf false)
    else if Rleb b 0 && Reqb b (floorR b) then
      if Reqb b (IZR (as_i32 b)) then negative_integer b a else Some (Inf false)
    else Some (beta_main a b)
  end.
Definition beta (a b : xr) : option xr :=
  match a, b with Fin a, Fin b => beta_rec 3 a b | _, _ => Some NaN end.

(** beta.rs:232-281: `ln_beta` after the non-positive integers have been handled *)
Definition ln_beta_main (a b : R) : xr :=
  let '(aa, bb) := if Rltb (Rabs a) (Rabs b) then (b, a) else (a, b) in
  if Rltb (asymptotic_factor * Rabs bb) (Rabs aa) && Rltb asymptotic_factor aa then
    let '(ll, sign) := ln_beta_asymptotic aa bb in xmul (Fin (IZR sign)) ll
  else
    let cc := aa + bb in
    if Rltb gamma_max (Rabs cc) || Rltb gamma_max (Rabs aa) || Rltb gamma_max (Rabs bb) then
      let '(la, _) := lgam aa in
      let '(lb, _) := lgam bb in
      let '(lc, _) := lgam cc in
      xsub (xadd la lb) lc
    else if is_neg_integer cc then Inf true
    else
      match gamma_identity aa bb cc with
      | Fin ans =>
        if Rltb (Rabs ans) (10 * / 2 ^ 52) then Inf true
        else if Rltb ans 0 then Fin (ln (- ans)) else Fin (ln ans)
      | Inf _ => Inf false
      | NaN => NaN
      end.
(** beta.rs:197-285 `ln_beta` on finite arguments and beta.rs:299-306 `ln_beta_negative_integer` *)
Fixpoint ln_beta_rec (fuel : nat) (a b : R) : option xr :=
  match fuel with
  | O => None
  | S fuel =>
    let negative_integer (a_int b : R) : option xr :=
      let b_int := IZR (as_i32 b) in
      if Reqb b b_int && Rltb 0 (1 - a_int - b) then ln_beta_rec fuel (1 - a_int - b) b
      else Some (Inf false) in
    if Rleb a 0 && Reqb a (floorR a) then
      if Reqb a (IZR (as_i32 a)) then negative_integer a b else Some (Inf false)
    else if Rleb b 0 && Reqb b (floorR b) then
      if Reqb b (IZR (as_i32 b)) then negative_integer b a else Some (Inf false)
    else Some (ln_beta_main a b)
  end.
Definition ln_beta (a b : xr) : option xr :=
  match a, b with Fin a, Fin b => ln_beta_rec 3 a b | _, _ => Some NaN end.
End Beta.
