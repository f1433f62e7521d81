(** Model of the error estimates of the interpolants:
    russell_lab/src/algo/interp_chebyshev.rs:529-540 and
    russell_lab/src/algo/interp_lagrange.rs:964-1050.  Exact real arithmetic;
    the only special value is the NaN that a callback may answer. *)
From Coq Require Import Reals List String.
From Verif Require Import Base RBase LabVec_Model InterpCheb_Model InterpLagrange_Model.
Import ListNotations.
Open Scope R_scope.

(** a floating-point number: a real number or NaN (infinities are left out) *)
Inductive num := Num (x : R) | NotANumber.

(** `f64::max`: the other argument if one of them is NaN *)
Definition nmax (a b : num) : num :=
  match a, b with
  | NotANumber, _ => b
  | _, NotANumber => a
  | Num x, Num y => Num (Rmax x y)
  end.

(** `f64::abs(fi - y)` *)
Definition nabs_diff (fi : R) (y : num) : num :=
  match y with Num v => Num (Rabs (fi - v)) | NotANumber => NotANumber end.

(** a callback `FnMut(f64, &mut A) -> Result<f64, StrError>`; the state holds
    the arguments and all that the callback captures *)
Definition fnmut (A : Type) := A -> R -> A * res num.
(** a callback that never answers NaN *)
Definition fnmut_r (A : Type) := A -> R -> A * res R.

(** `f(x, args)?` *)
Definition call {A T U} (f : A -> R -> A * res T) (st : A) (x : R) (k : A -> T -> A * res U) : A * res U :=
  let '(st1, r) := f st x in
  match r with Ok y => k st1 y | Err e => (st1, Err e) | Panic => (st1, Panic) end.

(** an inner call that does not touch the state, followed by `?` or `unwrap` *)
Definition pure {A T U} (st : A) (r : res T) (k : T -> A * res U) : A * res U :=
  match r with Ok y => k y | Err e => (st, Err e) | Panic => (st, Panic) end.

Definition stations_of (a b : R) (n : nat) : res (list R) :=
  unwrap (v_linspace R 0 Rplus Rminus Rmult Rdiv (fun n => Ok (INR n)) a b n).

(** interp_chebyshev.rs:535-538: the stations p, ..., p + c - 1 *)
Fixpoint ic_est_loop {A} (s : icheb) (f : fnmut A) (stations : list R) (c p : nat) (err_f : num) (st : A) : A * res num :=
  match c with
  | O => (st, Ok err_f)
  | S c' =>
      pure st (vget stations p) (fun x =>
      pure st (ic_eval s x) (fun fi =>
      call f st x (fun st1 y =>
      ic_est_loop s f stations c' (S p) (nmax err_f (nabs_diff fi y)) st1)))
  end.

(** interp_chebyshev.rs:529-540 `estimate_max_error` *)
Definition ic_estimate_max_error {A} (s : icheb) (nstation : nat) (f : fnmut A) (st : A) : A * res num :=
  pure st (stations_of (ic_xa s) (ic_xb s) nstation) (fun stations =>
  ic_est_loop s f stations nstation 0 (Num 0) st).

(** interp_lagrange.rs:968-972, 1022-1026: U(j) = f(x(j)) for j = k, ..., k + c - 1 *)
Fixpoint lg_sample {A U} (f : fnmut_r A) (xx : list R) (c k : nat) (uu : list R) (st : A) (ret : list R -> A -> A * res U) : A * res U :=
  match c with
  | O => ret uu st
  | S c' =>
      pure st (vget xx k) (fun x =>
      call f st x (fun st1 y =>
      pure st1 (vset uu k y) (fun uu =>
      lg_sample f xx c' (S k) uu st1 ret)))
  end.

(** interp_lagrange.rs:978-981 *)
Fixpoint lg_est_loop {A} (s : lagrange) (uu : list R) (f : fnmut_r A) (stations : list R) (c p : nat) (err_f : R) (st : A) : A * res R :=
  match c with
  | O => (st, Ok err_f)
  | S c' =>
      pure st (vget stations p) (fun x =>
      pure st (unwrap (lg_eval s x uu)) (fun fi =>
      call f st x (fun st1 y =>
      lg_est_loop s uu f stations c' (S p) (Rmax err_f (Rabs (fi - y))) st1)))
  end.

(** interp_lagrange.rs:964-984 `estimate_max_error` *)
Definition lg_estimate_max_error {A} (s : lagrange) (f : fnmut_r A) (st : A) : A * res R :=
  lg_sample f (lg_xx s) (lg_npoint s) 0 (repeat 0 (lg_npoint s)) st (fun uu st =>
  let nstation := error_estimate_nstation (lg_params s) in
  pure st (stations_of (-1) 1 nstation) (fun stations =>
  lg_est_loop s uu f stations nstation 0 0 st)).

(** interp_lagrange.rs:1032-1048: the stations p, ..., p + c - 1 of n *)
Fixpoint lg_est_all_loop {A} (s : lagrange) (uu : list R) (exclude : bool) (f g h : fnmut_r A) (n : nat) (stations : list R)
  (c p : nat) (err_f err_g err_h : R) (st : A) : A * res (R * R * R) :=
  match c with
  | O => (st, Ok (err_f, err_g, err_h))
  | S c' =>
      pure st (vget stations p) (fun x =>
      pure st (unwrap (lg_eval s x uu)) (fun fi =>
      pure st (unwrap (lg_eval_deriv1 s x uu)) (fun gi =>
      pure st (unwrap (lg_eval_deriv2 s x uu)) (fun hi =>
      call f st x (fun st1 y =>
      let err_f := Rmax err_f (Rabs (fi - y)) in
      if exclude && ((p =? 0)%nat || (p =? n - 1)%nat) then
        lg_est_all_loop s uu exclude f g h n stations c' (S p) err_f err_g err_h st1
      else
        call g st1 x (fun st2 yg =>
        call h st2 x (fun st3 yh =>
        lg_est_all_loop s uu exclude f g h n stations c' (S p) err_f (Rmax err_g (Rabs (gi - yg))) (Rmax err_h (Rabs (hi - yh))) st3)))))))
  end.

(** interp_lagrange.rs:1007-1050 `estimate_max_error_all` *)
Definition lg_estimate_max_error_all {A} (s : lagrange) (exclude : bool) (f g h : fnmut_r A) (st : A) : A * res (R * R * R) :=
  lg_sample f (lg_xx s) (lg_npoint s) 0 (repeat 0 (lg_npoint s)) st (fun uu st =>
  let nstation := error_estimate_nstation (lg_params s) in
  pure st (stations_of (-1) 1 nstation) (fun stations =>
  lg_est_all_loop s uu exclude f g h nstation stations nstation 0 0 0 0 st)).
