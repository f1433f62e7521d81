(** Model of russell_ode/src/euler_backward.rs. f64 is read as R. The linear algebra is external: a matrix type
    [M] and a factorization type [F] with arbitrary functions; a solver object holds the last factorization. *)
From Verif Require Export Erk_Model.
Open Scope nat_scope.

(** russell_lab vec_rms_scaled.rs:30-42 *)
Definition vec_rms_scaled (v v0 : vec) (abs_tol rel_tol : R) : res R :=
  _ <- assert_ (length v0 =? length v) ;;
  if length v =? 0 then Ok 0%R
  else
    sum <- for_range 0 (length v) (fun i sum =>
      v0i <- vget v0 i ;; vi <- vget v i ;;
      let den := (abs_tol + rel_tol * Rabs v0i)%R in
      Ok (sum + vi * vi / (den * den))%R) 0%R ;;
    Ok (sqrt (sum / INR (length v))).

(** the counters of Newton's iterations (stats.rs) *)
Definition add_iteration (w : workspace) : workspace := on_stats (fun s => set_n_iterations (n_iterations s + 1) s) w.
Definition add_jacobian (w : workspace) : workspace := on_stats (fun s => set_n_jacobian (n_jacobian s + 1) s) w.
Definition add_factor (w : workspace) : workspace := on_stats (fun s => set_n_factor (n_factor s + 1) s) w.
Definition add_lin_sol (w : workspace) : workspace := on_stats (fun s => set_n_lin_sol (n_lin_sol s + 1) s) w.
(** stats.rs `update_n_iterations_max` *)
Definition update_n_iterations_max (w : workspace) : workspace :=
  on_stats (fun s => if n_iterations_max s <? n_iterations s then set_n_iterations_max (n_iterations s) s else s) w.

Section Bwe.
Variable ndim : nat.
Variable f : R -> vec -> res vec.
Variables M F : Type.
(** the user's or the numerical Jacobian times h, with -1 put on the diagonal: h J(x, y) - I *)
Variable jac : R -> R -> vec -> res M.
(** linear solver: factorization and solution *)
Variable factorize : M -> res F.
Variable lsolve : F -> vec -> res vec.
(** whether the system provides a Jacobian function *)
Variable has_jacobian : bool.

(** euler_backward.rs:7-33 (the matrix K is transient; the solver's state is its last factorization) *)
Record bwe := mkBwe { b_params : params; b_k : vec; b_w : vec; b_r : vec; b_dy : vec; b_fact : option F }.

(** euler_backward.rs:37-56 *)
Definition bwe_new (p : params) : bwe := mkBwe p (zeros ndim) (zeros ndim) (zeros ndim) (zeros ndim) None.

(** euler_backward.rs:88-90 *)
Definition bwe_residual (y_new y k : vec) (h : R) (r : vec) : res vec :=
  for_range 0 ndim (fun i r => a <- vget y_new i ;; b <- vget y i ;; c <- vget k i ;; vset r i (a - b - h * c)%R) r.

(** euler_backward.rs:79-139: the Newton iterations; returns whether it converged *)
Fixpoint bwe_iterate (n : nat) (s : bwe) (w : workspace) (x : R) (y : vec) (h : R) : res (bool * bwe * workspace) :=
  match n with
  | 0 => Ok (false, s, w)
  | S n =>
    let w := add_iteration w in
    let w := add_n_function 1 w in
    k <- f (x + h)%R (b_w s) ;;
    r <- bwe_residual (b_w s) y k h (b_r s) ;;
    r_norm <- vec_rms_scaled r y (t_abs (p_tol (b_params s))) (t_rel (p_tol (b_params s))) ;;
    if Rltb r_norm (t_newton (p_tol (b_params s))) then Ok (true, mkBwe (b_params s) k (b_w s) r (b_dy s) (b_fact s), w)
    else
      '(fact, w) <- (if negb (p_modified_newton (b_params s)) || (n_accepted (w_stats w) =? 0) then
                       let w := add_jacobian w in
                       let w := if use_numerical_jacobian (p_newton (b_params s)) || negb has_jacobian then add_n_function ndim w else w in
                       kk <- jac h (x + h)%R (b_w s) ;;
                       let w := add_factor w in
                       fa <- factorize kk ;;
                       Ok (Some fa, w)
                     else Ok (b_fact s, w)) ;;
      let w := add_lin_sol w in
      dy <- match fact with Some fa => lsolve fa r | None => Err "the function factorize must be called before solve" end ;;
      y_new <- vupdate (b_w s) 1 dy ;;
      bwe_iterate n (mkBwe (b_params s) k y_new r dy fact) w x y h
  end.

(** euler_backward.rs:66-147 *)
Definition bwe_step (s : bwe) (w : workspace) (x : R) (y : vec) (h : R) : res (bwe * workspace) :=
  w0 <- vcopy (b_w s) y ;;
  let w := on_stats (set_n_iterations 0) w in
  '(success, s, w) <- bwe_iterate (n_iteration_max (p_newton (b_params s))) (mkBwe (b_params s) (b_k s) w0 (b_r s) (b_dy s) (b_fact s)) w x y h ;;
  let w := update_n_iterations_max w in
  if success then Ok (s, w) else Err "Newton-Raphson method did not complete successfully".

(** euler_backward.rs:150-161 *)
Definition bwe_accept (s : bwe) (w : workspace) (x : R) (y : vec) (h : R) : res (bwe * workspace * R * vec) :=
  y <- vcopy y (b_w s) ;; Ok (s, w, (x + h)%R, y).

(** euler_backward.rs:61-63, 164, 167 *)
Definition bwe_ops : method_ops bwe :=
  mkOps bwe (fun _ => Err "dense output is not available for the BwEuler method") bwe_step bwe_accept
    (fun s w _ => (s, w)) (fun _ _ _ _ _ => Ok (zeros ndim)).
End Bwe.
Arguments mkBwe {F}. Arguments b_params {F}. Arguments b_k {F}. Arguments b_w {F}. Arguments b_r {F}. Arguments b_dy {F}. Arguments b_fact {F}.
