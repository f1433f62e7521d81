(** Model of russell_lab: the numerical derivatives of check/deriv{1,2}_*.rs and
    the dense numerical Jacobian of algo/num_jacobian.rs.

    `f64` is read as a real number, so the tests for NaN and infinity are left
    out. The user function is an oracle that may change its arguments and may
    fail; it also gives back its arguments when it fails. *)
From Coq Require Import Reals List.
From Verif Require Import Base RBase Search_Model Dense_Model.
Import ListNotations.
Local Open Scope R_scope.

(** a computation that changes the state behind `&mut` and returns a `Result` *)
Definition M (S X : Type) : Type := S -> S * res X.
Definition mret {S X} (x : X) : M S X := fun s => (s, Ok x).
Definition mlift {S X} (r : res X) : M S X := fun s => (s, r).
(** `let x = m?; k` *)
Definition mbind {S X Y} (m : M S X) (k : X -> M S Y) : M S Y := fun s =>
  match m s with
  | (s', Ok x) => k x s'
  | (s', Err e) => (s', Err e)
  | (s', Panic) => (s', Panic)
  end.
Notation "x <~ m ;; k" := (mbind m (fun x => k)) (at level 61, m at next level, right associativity).
(** `for i in lo..lo + n` *)
Fixpoint mfor {S X} (n lo : nat) (body : nat -> X -> M S X) (x : X) : M S X :=
  match n with
  | O => mret x
  | S n => y <~ body lo x ;; mfor n (lo + 1)%nat body y
  end.

Section Deriv.
Variable S : Type.
(** f(x, args) *)
Variable f : R -> M S R.

(** deriv1_central.rs:36-58 `deriv1_and_errors_central5` *)
Definition deriv1_and_errors_central5 (at_x h : R) : M S (R * R * R) :=
  fm1 <~ f (at_x - h) ;;
  fp1 <~ f (at_x + h) ;;
  fmh <~ f (at_x - h / 2) ;;
  fph <~ f (at_x + h / 2) ;;
  let r3 := 1 / 2 * (fp1 - fm1) in
  let r5 := 4 / 3 * (fph - fmh) - 1 / 3 * r3 in
  let dfdx := r5 / h in
  let e3 := (Rabs fp1 + Rabs fm1) * FEPS in
  let e5 := 2 * (Rabs fph + Rabs fmh) * FEPS + e3 in
  let dy := Rmax (Rabs (r3 / h)) (Rabs (r5 / h)) * (Rabs at_x / h) * FEPS in
  let abs_trunc_err := Rabs ((r5 - r3) / h) in
  let abs_round_err := Rabs (e5 / h) + dy in
  mret (dfdx, abs_trunc_err, abs_round_err).

(** the step size of all formulas *)
Definition STEPSIZE : R := 1 / 1000.

(** deriv1_central.rs:110-146 `deriv1_central5`; the base of the power is positive where it is taken *)
Definition deriv1_central5 (at_x : R) : M S R :=
  let h := STEPSIZE in
  t <~ deriv1_and_errors_central5 at_x h ;;
  let '(dfdx, err, rerr) := t in
  let err_total := err + rerr in
  if Reqb err 0 || Reqb rerr 0 then mret dfdx
  else if Rltb err rerr then mret dfdx
  else
    let h_improv := h * Rpower (rerr / (2 * err)) (1 / 3) in
    t <~ deriv1_and_errors_central5 at_x h_improv ;;
    let '(dfdx_improv, err_improv, rerr_improv) := t in
    let err_total_improv := err_improv + rerr_improv in
    if Rltb err_total err_total_improv then mret dfdx
    else if Rltb (4 * err_total) (Rabs (dfdx_improv - dfdx)) then mret dfdx
    else mret dfdx_improv.

(** deriv1_forward.rs:6-37 `deriv1_forward7` *)
Definition deriv1_forward7 (at_x : R) : M S R :=
  let h := STEPSIZE in
  f0 <~ f at_x ;;
  f1 <~ f (at_x + h) ;;
  f2 <~ f (at_x + 2 * h) ;;
  f3 <~ f (at_x + 3 * h) ;;
  f4 <~ f (at_x + 4 * h) ;;
  f5 <~ f (at_x + 5 * h) ;;
  f6 <~ f (at_x + 6 * h) ;;
  mret ((-49 / 20 * f0 + 6 * f1 + -15 / 2 * f2 + 20 / 3 * f3 + -15 / 4 * f4 + 6 / 5 * f5 + -1 / 6 * f6) / h).

(** deriv1_backward.rs:6-37 `deriv1_backward7` *)
Definition deriv1_backward7 (at_x : R) : M S R :=
  let h := STEPSIZE in
  f0 <~ f at_x ;;
  f1 <~ f (at_x - h) ;;
  f2 <~ f (at_x - 2 * h) ;;
  f3 <~ f (at_x - 3 * h) ;;
  f4 <~ f (at_x - 4 * h) ;;
  f5 <~ f (at_x - 5 * h) ;;
  f6 <~ f (at_x - 6 * h) ;;
  mret ((49 / 20 * f0 + -6 * f1 + 15 / 2 * f2 + -20 / 3 * f3 + 15 / 4 * f4 + -6 / 5 * f5 + 1 / 6 * f6) / h).

(** deriv2_central.rs:6-39 `deriv2_central9` *)
Definition deriv2_central9 (at_x : R) : M S R :=
  let h := STEPSIZE in
  let hh := h * h in
  fm4 <~ f (at_x - 4 * h) ;;
  fm3 <~ f (at_x - 3 * h) ;;
  fm2 <~ f (at_x - 2 * h) ;;
  fm1 <~ f (at_x - 1 * h) ;;
  fzz <~ f at_x ;;
  fp1 <~ f (at_x + 1 * h) ;;
  fp2 <~ f (at_x + 2 * h) ;;
  fp3 <~ f (at_x + 3 * h) ;;
  fp4 <~ f (at_x + 4 * h) ;;
  mret ((-1 / 560 * fm4 + 8 / 315 * fm3 + -1 / 5 * fm2 + 8 / 5 * fm1 + -205 / 72 * fzz + 8 / 5 * fp1 + -1 / 5 * fp2
         + 8 / 315 * fp3 + -1 / 560 * fp4) / hh).

(** deriv2_forward.rs:6-40 `deriv2_forward8` *)
Definition deriv2_forward8 (at_x : R) : M S R :=
  let h := STEPSIZE in
  let hh := h * h in
  f0 <~ f at_x ;;
  f1 <~ f (at_x + h) ;;
  f2 <~ f (at_x + 2 * h) ;;
  f3 <~ f (at_x + 3 * h) ;;
  f4 <~ f (at_x + 4 * h) ;;
  f5 <~ f (at_x + 5 * h) ;;
  f6 <~ f (at_x + 6 * h) ;;
  f7 <~ f (at_x + 7 * h) ;;
  mret ((469 / 90 * f0 + -223 / 10 * f1 + 879 / 20 * f2 + -949 / 18 * f3 + 41 * f4 + -201 / 10 * f5 + 1019 / 180 * f6
         + -7 / 10 * f7) / hh).

(** deriv2_backward.rs:6-40 `deriv2_backward8` *)
Definition deriv2_backward8 (at_x : R) : M S R :=
  let h := STEPSIZE in
  let hh := h * h in
  f0 <~ f at_x ;;
  f1 <~ f (at_x - h) ;;
  f2 <~ f (at_x - 2 * h) ;;
  f3 <~ f (at_x - 3 * h) ;;
  f4 <~ f (at_x - 4 * h) ;;
  f5 <~ f (at_x - 5 * h) ;;
  f6 <~ f (at_x - 6 * h) ;;
  f7 <~ f (at_x - 7 * h) ;;
  mret ((469 / 90 * f0 + -223 / 10 * f1 + 879 / 20 * f2 + -949 / 18 * f3 + 41 * f4 + -201 / 10 * f5 + 1019 / 180 * f6
         + -7 / 10 * f7) / hh).

(** deriv1_approx_eq.rs:20-47, deriv1_approx_eq_{fw,bw}.rs, deriv2_approx_eq.rs, deriv2_approx_eq_{fw,bw}.rs:20-47:
    the six functions differ in the formula [num] only; a failing function makes them panic *)
Definition approx_eq_with (num : R -> M S R) (deriv at_x tol : R) : M S unit := fun s =>
  match num at_x s with
  | (s', Ok n) => (s', if Rltb tol (Rabs (deriv - n)) then Panic else Ok tt)
  | (s', _) => (s', Panic)
  end.
Definition deriv1_approx_eq : R -> R -> R -> M S unit := approx_eq_with deriv1_central5.
Definition deriv1_approx_eq_fw : R -> R -> R -> M S unit := approx_eq_with deriv1_forward7.
Definition deriv1_approx_eq_bw : R -> R -> R -> M S unit := approx_eq_with deriv1_backward7.
Definition deriv2_approx_eq : R -> R -> R -> M S unit := approx_eq_with deriv2_central9.
Definition deriv2_approx_eq_fw : R -> R -> R -> M S unit := approx_eq_with deriv2_forward8.
Definition deriv2_approx_eq_bw : R -> R -> R -> M S unit := approx_eq_with deriv2_backward8.
End Deriv.

Section NumJacobian.
Variable A : Type.
(** function(f, x, y, args): the new f, the new args and the result *)
Variable function : list R -> R -> list R -> A -> list R * A * res unit.

(** num_jacobian.rs:91-97 `Extra` without x, i and j, which do not change during a call; with the captured `args` *)
Definition extra : Type := (list R * list R * A)%type.

(** num_jacobian.rs:110-116 the closure *)
Definition jac_component (x : R) (i j : nat) (yj : R) : M extra R := fun '(y, w, a) =>
  match vget y j with
  | Ok original =>
      let y1 := upd y j yj in
      let '(w', a', r) := function w x y1 a in
      match r with
      | Ok _ => ((upd y1 j original, w', a'), vget w' i)
      | Err e => ((y1, w', a'), Err e)
      | Panic => ((y1, w', a'), Panic)
      end
  | _ => ((y, w, a), Panic)
  end.

(** num_jacobian.rs:80-121 `num_jacobian`; also gives the final args *)
Definition num_jacobian (ndim : nat) (x_at : R) (y_at : list R) (alpha : R) (args : A) : A * res (dmat R) :=
  let '((_, _, a), r) :=
    mfor ndim 0 (fun i jac =>
      mfor ndim 0 (fun j jac =>
        yj <~ mlift (vget y_at j) ;;
        d <~ deriv1_central5 extra (jac_component x_at i j) yj ;;
        mlift (d_set jac i j (d * alpha))) jac) (d_new R 0 ndim ndim) (y_at, repeat 0 ndim, args) in
  (a, r).
End NumJacobian.
