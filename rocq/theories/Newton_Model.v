(** russell_lab/src/algo/newton_solver.rs: NewtonSolver.

    f64 is read as a real number.  The user's two callbacks may depend on every
    earlier call and may fail; every call is recorded with its answer.  The
    dense linear solver (LAPACK dgesv) is an oracle that may fail.  All the
    vectors have [ndim] entries, so the index loops are written as maps over
    0..ndim. *)
From Verif Require Export RBase.

Section Newton.
Variable mat : Type.

(** a call of `calc_f` / `calc_jj`: where, and the answer *)
Inductive ncall := FCall (x : list R) (r : res (list R)) | JCall (x : list R) (j : res mat).
Definition ncalls := list ncall.

Variable calc_f : ncalls -> list R -> res (list R).
Variable calc_jj : ncalls -> list R -> res mat.
(** solve_lin_sys(&mut p, &mut jj): returns the solution of jj * p = b *)
Variable solve_lin_sys : mat -> list R -> res (list R).

(** newton_solver.rs:22-65 (parameters) *)
Record nparams := mkNP {
  np_ndim : nat; np_max_iterations : nat; np_tolerance : R; np_divergent_tol : R;
  np_use_line_search : bool; np_initial_alpha : R }.

(** stats.rs:6-28, with tracking enabled *)
Record nstats := mkNS { ns_function : nat; ns_jacobian : nat; ns_iterations : nat }.

(** vec_norm.rs:36-51 with Norm::Max (cblas_idamax as the largest absolute value) *)
Definition norm_max (r : list R) : R := fold_right (fun a m => Rmax (Rabs a) m) 0%R r.

(** vec_inner *)
Definition inner (n : nat) (u v : list R) : R :=
  fold_right Rplus 0%R (map (fun i => nth i u 0 * nth i v 0)%R (seq 0 n)).

(** newton_solver.rs:300-302, 314-316 *)
Definition move (n : nat) (x : list R) (alpha : R) (p : list R) : list R :=
  map (fun i => nth i x 0 + alpha * nth i p 0)%R (seq 0 n).

(** newton_solver.rs:283-285 *)
Definition negate (n : nat) (r : list R) : list R := map (fun i => - nth i r 0)%R (seq 0 n).

(** newton_solver.rs:88-102 *)
Definition newton_validate (c : nparams) : res unit :=
  if np_max_iterations c <? 1 then Err "max_iterations must be >= 1"
  else if Rltb (np_tolerance c) (10 * / 2 ^ 52) then Err "tolerance must be >= 10 * f64::EPSILON"
  else if Rltb (np_divergent_tol c) 1 then Err "divergent_tol must be >= 1.0"
  else if Rleb (np_initial_alpha c) 0 then Err "initial_alpha must be > 0"
  else Ok tt.

(** the observable outcome: x on return (also on failure), the calls made, the
    statistics and the result *)
Record noutcome := mkNO { no_x : list R; no_calls : ncalls; no_stats : nstats; no_res : res unit }.

Definition inc_f (s : nstats) := mkNS (ns_function s + 1) (ns_jacobian s) (ns_iterations s).
Definition inc_j (s : nstats) := mkNS (ns_function s) (ns_jacobian s + 1) (ns_iterations s).
Definition inc_i (s : nstats) := mkNS (ns_function s) (ns_jacobian s) (ns_iterations s + 1).

(** newton_solver.rs:289-311: [n] trials left; the result is the new x and r,
    or the failed call *)
Fixpoint newton_search (c : nparams) (phi_base slope : R) (x_base p : list R) (n : nat) (alpha : R)
    (x r : list R) (l : ncalls) (s : nstats) : list R * ncalls * nstats * res (list R) :=
  match n with
  | 0 => (x, l, s, Ok r)
  | S n' =>
      let x := move (np_ndim c) x_base alpha p in
      let a := calc_f l x in
      let l := l ++ [FCall x a] in
      match a with
      | Err e => (x, l, s, Err e)
      | Panic => (x, l, s, Panic)
      | Ok r =>
          let s := inc_f s in
          let phi_new := (1/2 * inner (np_ndim c) r r)%R in
          if Rleb phi_new (phi_base + 1e-4 * alpha * slope) then (x, l, s, Ok r)
          else newton_search c phi_base slope x_base p n' (alpha * (1/2))%R x r l s
      end
  end.

(** newton_solver.rs:265-327; [n] iterations left, [it] done; [r] is the
    residual vector with norm [norm] *)
Fixpoint newton_loop (c : nparams) (initial_norm : R) (n it : nat) (x r : list R) (norm : R)
    (l : ncalls) (s : nstats) : noutcome :=
  match n with
  | 0 => mkNO x l s (Err "Newton solver failed to converge")
  | S n' =>
      let s := inc_i s in
      if Rltb norm (np_tolerance c) then mkNO x l s (Ok tt)
      else if (0 <? it) && Rltb (np_divergent_tol c * initial_norm) norm then mkNO x l s (Err "solution diverged")
      else
        let j := calc_jj l x in
        let l := l ++ [JCall x j] in
        match j with
        | Err e => mkNO x l s (Err e)
        | Panic => mkNO x l s Panic
        | Ok jj =>
            let s := inc_j s in
            match solve_lin_sys jj (negate (np_ndim c) r) with
            | Err e => mkNO x l s (Err e)
            | Panic => mkNO x l s Panic
            | Ok p =>
                if np_use_line_search c then
                  let phi_base := (1/2 * inner (np_ndim c) r r)%R in
                  let slope := (-2 * phi_base)%R in
                  match newton_search c phi_base slope x p 20 (np_initial_alpha c) x r l s with
                  | (x, l, s, Ok r) => newton_loop c initial_norm n' (it + 1) x r (norm_max r) l s
                  | (x, l, s, Err e) => mkNO x l s (Err e)
                  | (x, l, s, Panic) => mkNO x l s Panic
                  end
                else
                  let x := move (np_ndim c) x 1 p in
                  let a := calc_f l x in
                  let l := l ++ [FCall x a] in
                  match a with
                  | Err e => mkNO x l s (Err e)
                  | Panic => mkNO x l s Panic
                  | Ok r => newton_loop c initial_norm n' (it + 1) x r (norm_max r) l (inc_f s)
                  end
            end
        end
  end.

(** newton_solver.rs:236-328 *)
Definition newton_solve (c : nparams) (x : list R) : noutcome :=
  let s := mkNS 0 0 0 in
  match newton_validate c with
  | Err e => mkNO x [] s (Err e)
  | Panic => mkNO x [] s Panic
  | Ok _ =>
      if negb (length x =? np_ndim c) then mkNO x [] s (Err "dimension of x does not match solver dimension")
      else
        let a := calc_f [] x in
        let l := [FCall x a] in
        match a with
        | Err e => mkNO x l s (Err e)
        | Panic => mkNO x l s Panic
        | Ok r => newton_loop c (norm_max r) (np_max_iterations c) 0 x r (norm_max r) l (inc_f s)
        end
  end.

End Newton.
Arguments FCall {mat}.
Arguments JCall {mat}.
Arguments newton_search {mat}.
Arguments newton_loop {mat}.
Arguments newton_solve {mat}.
Arguments mkNO {mat}.
Arguments no_x {mat}.
Arguments no_calls {mat}.
Arguments no_stats {mat}.
Arguments no_res {mat}.
