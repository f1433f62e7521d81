(** Model of russell_lab: the checks of the derivatives of vector functions
    (vector/vec_deriv1_approx_eq.rs, vector/vec_deriv2_approx_eq.rs) and the
    operations on small vectors (small/small_vec_add.rs, small/small_vec_update.rs). *)
From Coq Require Import Reals List.
From Verif Require Import Base RBase NumDeriv_Model.
Import ListNotations.
Open Scope R_scope.

Section VecDeriv.
Variable A : Type.
(** f(v, s, args): the new v, the new args and the result *)
Variable f : list R -> R -> A -> list R * A * res unit.

(** the closure of vec_deriv1_approx_eq.rs:43-46 and vec_deriv2_approx_eq.rs:43-46;
    the state is the arguments with the captured vector *)
Definition component (i : nat) (t : R) : M (A * list R) R := fun st =>
  let '(a, v) := st in
  let '(v', a', r) := f v t a in
  ((a', v'), _ <- r ;; vget v' i).

(** vec_deriv1_approx_eq.rs:36-48, vec_deriv2_approx_eq.rs:36-48; the two functions
    differ in the check of a component only *)
Definition vec_check_with (chk : (R -> M (A * list R) R) -> R -> R -> R -> M (A * list R) unit)
  (dv : list R) (at_s : R) (tol : R) (a : A) : (A * list R) * res unit :=
  let n := length dv in
  mfor n 0 (fun i _ => d <~ mlift (vget dv i) ;; chk (component i) d at_s tol) tt (a, repeat 0 n).

Definition vec_deriv1_approx_eq := vec_check_with (deriv1_approx_eq (A * list R)).
Definition vec_deriv2_approx_eq := vec_check_with (deriv2_approx_eq (A * list R)).
End VecDeriv.

Section Small.
Variable T : Type.
Variable add mul : T -> T -> T.

(** small/small_vec_add.rs:42-56 `small_vec_add`; N is the length of the arrays *)
Definition small_vec_add (w : list T) (alpha : T) (u : list T) (beta : T) (v : list T) (n : nat) : res (list T) :=
  _ <- assert_ (n <=? length w)%nat ;;
  for_range 0 n (fun i w => ui <- vget u i ;; vi <- vget v i ;; vset w i (add (mul alpha ui) (mul beta vi))) w.

(** small/small_vec_update.rs:39-47 `small_vec_update` *)
Definition small_vec_update (v : list T) (alpha : T) (u : list T) (n : nat) : res (list T) :=
  _ <- assert_ (n <=? length v)%nat ;;
  for_range 0 n (fun i v => vi <- vget v i ;; ui <- vget u i ;; vset v i (add vi (mul alpha ui))) v.
End Small.
