(** Chebyshev polynomials and point sets: russell_lab/src/math/chebyshev.rs; f64 read as a real number. *)
From Verif Require Import RBase.
Open Scope R_scope.
Open Scope res_scope.

(** chebyshev.rs:310-331 `chebyshev_lobatto_points` *)
Definition chebyshev_lobatto_points (nn : nat) : res (list R) :=
  xx <- vset (repeat 0 (nn + 1)) 0 (-1) ;;
  xx <- vset xx nn 1 ;;
  if (nn <? 3)%nat then Ok xx
  else
    let nf := INR nn in
    let d := 2 * nf in
    let l := (if Nat.even nn then nn / 2 else (nn + 3) / 2 - 1)%nat in
    for_range 1 l (fun i xx =>
      m <- usub nn i ;;
      let v := sin (PI * (nf - 2 * INR i) / d) in
      xx <- vset xx m v ;;
      w <- vget xx m ;;
      vset xx i (- w)) xx.
