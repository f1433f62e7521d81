(** Model of russell_lab/src/math/legendre.rs: Legendre polynomials, their derivatives and the quadrature rules on them.
    Simplification: f64 is modelled by R. *)
From Verif Require Import Base RBase.
From Coq Require Import Reals.
Local Open Scope R_scope.

(** legendre.rs:32-48 `legendre_pn` *)
Definition legendre_pn (n : nat) (x : R) : R :=
  match n with
  | O => 1
  | S O => x
  | _ => snd (fold_left (fun '(p_prev, p_curr) k =>
           let kf := INR k in
           let p_next := ((2 * kf + 1) * x * p_curr - kf * p_prev) / (kf + 1) in
           (p_curr, p_next)) (seq 1 (n - 1)) (1, x))
  end.

(** legendre.rs:78-94 `legendre_pn_deriv1` *)
Definition legendre_pn_deriv1 (n : nat) (x : R) : R :=
  if (n =? 0)%nat then 0
  else if Rltb (Rabs (x - 1)) (/ 10 ^ 15) then let nf := INR n in nf * (nf + 1) / 2
  else if Rltb (Rabs (x + 1)) (/ 10 ^ 15) then
    let nf := INR n in let val := nf * (nf + 1) / 2 in if Nat.even n then - val else val
  else
    let pn := legendre_pn n x in
    let pn1 := legendre_pn (n - 1) x in
    INR n * (x * pn - pn1) / (x * x - 1).

(** legendre.rs:125-141 `legendre_pn_deriv2` *)
Definition legendre_pn_deriv2 (n : nat) (x : R) : R :=
  if (n <=? 1)%nat then 0
  else
    let nf := INR n in
    let nn1 := nf * (nf + 1) in
    if Rltb (Rabs (x - 1)) (/ 10 ^ 15) then (nf - 1) * nf * (nf + 1) * (nf + 2) / 8
    else if Rltb (Rabs (x + 1)) (/ 10 ^ 15) then
      let val := (nf - 1) * nf * (nf + 1) * (nf + 2) / 8 in if Nat.even n then val else - val
    else
      let dpn := legendre_pn_deriv1 n x in
      let pn := legendre_pn n x in
      (2 * x * dpn - nn1 * pn) / (1 - x * x).

(** legendre.rs:170-181, 259-270: the Newton iterations, with at most [fuel] steps on the value [f] and slope [df] *)
Fixpoint legendre_newton (f df : R -> R) (fuel : nat) (x : R) : R :=
  match fuel with
  | O => x
  | S fuel' =>
      let p := f x in
      let dp := df x in
      if Rltb (Rabs dp) (/ 10 ^ 30) then x
      else
        let dx := - p / dp in
        let x := x + dx in
        if Rltb (Rabs dx) (/ 10 ^ 15) then x else legendre_newton f df fuel' x
  end.

(** legendre.rs:184-188: the stable sort by value, as insertion *)
Fixpoint insert_asc (a : R) (l : list R) : list R :=
  match l with [] => [a] | b :: l' => if Rleb a b then a :: l else b :: insert_asc a l' end.
Definition sort_asc (l : list R) : list R := fold_right insert_asc [] l.

(** legendre.rs:159-190 `legendre_gauss_points` *)
Definition legendre_gauss_points (nn : nat) : list R :=
  if (nn =? 0)%nat then [0]
  else
    let n := (nn + 1)%nat in
    sort_asc (map (fun k =>
      let angle := PI * INR (4 * k + 3) / INR (4 * n + 2) in
      legendre_newton (legendre_pn n) (legendre_pn_deriv1 n) 100 (cos angle)) (seq 0 (nn + 1))).

(** legendre.rs:212-219: the weights of the points [xx] *)
Definition gauss_weights_at (nn : nat) (xx : list R) : list R :=
  let n := (nn + 1)%nat in
  map (fun k =>
    let x := nth k xx 0 in
    let dp := legendre_pn_deriv1 n x in
    2 / ((1 - x * x) * dp * dp)) (seq 0 (nn + 1)).
(** legendre.rs:210-220 `legendre_gauss_weights` *)
Definition legendre_gauss_weights (nn : nat) : list R := gauss_weights_at nn (legendre_gauss_points nn).

(** legendre.rs:240-274 `legendre_lobatto_points` *)
Definition legendre_lobatto_points (nn : nat) : list R :=
  if (nn =? 0)%nat then [0]
  else if (nn <? 3)%nat then if (nn =? 2)%nat then [-1; 0; 1] else [-1; 1]
  else
    -1 :: map (fun k =>
      let angle := PI * INR k / INR nn in
      legendre_newton (legendre_pn_deriv1 nn) (legendre_pn_deriv2 nn) 200 (- cos angle)) (seq 1 (nn - 1)) ++ [1].

(** legendre.rs:303-317: the weights of the points [xx] *)
Definition lobatto_weights_at (nn : nat) (xx : list R) : list R :=
  if (nn <? 2)%nat then repeat 0 (nn + 1)
  else
    let np1 := INR (nn + 1) in
    let w_endpoint := 2 / (np1 * (np1 - 1)) in
    w_endpoint :: map (fun k =>
      let x := nth k xx 0 in
      let pn1 := legendre_pn nn x in
      2 / (np1 * (np1 - 1) * pn1 * pn1)) (seq 1 (nn - 1)) ++ [w_endpoint].
(** legendre.rs:302-318 `legendre_lobatto_weights` *)
Definition legendre_lobatto_weights (nn : nat) : list R := lobatto_weights_at nn (legendre_lobatto_points nn).
