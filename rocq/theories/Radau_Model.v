(** Model of russell_ode/src/radau5.rs. f64 is read as R. The Jacobian and the linear solvers are external functions.
    The work arrays v, k, w, dw are filled in a step before they are read in it; they are local values here. *)
From Verif Require Export Bwe_Model.
Open Scope nat_scope.

(** radau5.rs:695-725 *)
Definition ALPHA : R := 2.6810828736277521338957907432111121010270319565630.
Definition BETA : R := 3.0504301992474105694263776247875679044407041991795.
Definition GAMMA : R := 3.6378342527444957322084185135777757979459360868739.
Definition E0 : R := (-2.7623054547485993983499285952820549558040707846130)%R.
Definition E1 : R := 0.37993559825272887786874736408712686858426119657697.
Definition E2 : R := (-0.091629609865225789249276201199804926431531138001387)%R.
Definition MU1 : R := 0.15505102572168219018027159252941086080340525193433.
Definition MU2 : R := 0.64494897427831780981972840747058913919659474806567.
Definition MU3 : R := (-0.84494897427831780981972840747058913919659474806567)%R.
Definition MU4 : R := (-0.35505102572168219018027159252941086080340525193433)%R.
Definition MU5 : R := (-0.48989794855663561963945681494117827839318949613133)%R.
Definition C0 : R := ((4 - sqrt 6) / 10)%R.
Definition C1 : R := ((4 + sqrt 6) / 10)%R.
Definition C2 : R := 1%R.
Definition T00 : R := 0.091232394870892942792.
Definition T01 : R := (-0.14125529502095420843)%R.
Definition T02 : R := (-0.030029194105147424492)%R.
Definition T10 : R := 0.24171793270710701896.
Definition T11 : R := 0.20412935229379993199.
Definition T12 : R := 0.38294211275726193779.
Definition T20 : R := 0.96604818261509293619.
Definition T21 : R := 1%R.
Definition T22 : R := 0%R.
Definition TI00 : R := 4.3255798900631553510.
Definition TI01 : R := 0.33919925181580986954.
Definition TI02 : R := 0.54177053993587487119.
Definition TI10 : R := (-4.1787185915519047273)%R.
Definition TI11 : R := (-0.32768282076106238708)%R.
Definition TI12 : R := 0.47662355450055045196.
Definition TI20 : R := (-0.50287263494578687595)%R.
Definition TI21 : R := 2.5719269498556054292.
Definition TI22 : R := (-0.59603920482822492497)%R.

(** component-wise operations on vectors (the `for m in 0..ndim` loops) *)
Definition tab1 (n : nat) (g : R -> R) (a : vec) : res vec := tabulate n (fun m => x <- vget a m ;; Ok (g x)).
Definition tab2 (n : nat) (g : R -> R -> R) (a b : vec) : res vec := tabulate n (fun m => x <- vget a m ;; y <- vget b m ;; Ok (g x y)).
Definition tab3 (n : nat) (g : R -> R -> R -> R) (a b c : vec) : res vec :=
  tabulate n (fun m => x <- vget a m ;; y <- vget b m ;; z <- vget c m ;; Ok (g x y z)).
Definition tab4 (n : nat) (g : R -> R -> R -> R -> R) (a b c d : vec) : res vec :=
  tabulate n (fun m => x <- vget a m ;; y <- vget b m ;; z <- vget c m ;; u <- vget d m ;; Ok (g x y z u)).

(** radau5.rs:684-693 `rms_norm` *)
Definition rms_norm (err scaling : vec) : res R :=
  _ <- assert_ (length scaling =? length err) ;;
  sum <- for_range 0 (length err) (fun m sum => e <- vget err m ;; s <- vget scaling m ;; let ratio := (e / s)%R in Ok (sum + ratio * ratio)%R) 0%R ;;
  Ok (Rmax (1/10^10) (sqrt (sum / INR (length err)))).

(** two computations in threads that are joined: a failure or a panic in a thread becomes an error of the whole
    (radau5.rs:270-296 and 306-326) *)
Definition join2 {A B} (both one two : string) (a : res A) (b : res B) : res (A * B) :=
  match a, b with
  | Ok a, Ok b => Ok (a, b)
  | Ok _, _ => Err two
  | _, Ok _ => Err one
  | _, _ => Err both
  end.
(** one after the other *)
Definition seq2 {A B} (a : res A) (b : res B) : res (A * B) := x <- a ;; y <- b ;; Ok (x, y).

Definition set_w_mult (v : R) (w : workspace) : workspace :=
  mkWork (w_stats w) (w_follows_reject w) (w_diverging w) v (w_h_prev w) (w_h_new w) (w_rel_error_prev w) (w_rel_error w)
    (w_stiff_x w) (w_stiff_hrho w) (w_stiff_no w) (w_stiff_yes w) (w_stiff_detected w).

Section Radau.
Variable ndim : nat.
Variable f : R -> vec -> res vec.
Variable powf : R -> R -> R.
Variables J FR FC : Type.
(** the Jacobian matrix df/dy (user's function or numerical), the factorizations of gamma M - J and (alpha + i beta) M - J,
    the solutions with them, and the product with the mass matrix if there is one *)
Variable jac : R -> vec -> res J.
Variable factorize_real : J -> R -> res FR.
Variable factorize_comp : J -> R -> R -> res FC.
Variable solve_real : FR -> vec -> res vec.
Variable solve_comp : FC -> vec -> vec -> res (vec * vec).
Variable mass : option (vec -> res vec).
Variable has_jacobian : bool.
(** ParamsRadau5::concurrent and the solver is not MUMPS; ParamsNewton::write_matrix_after_nstep_and_stop *)
Variable concurrent : bool.
Variable write_after : option nat.

(** radau5.rs:28-120 *)
Record radau := mkRad { r_params : params; r_jj : J; r_real : option FR; r_comp : option FC;
  r_reuse_jac : bool; r_reuse_all : bool; r_computed : bool; r_eta : R; r_theta : R;
  r_kacc : vec; r_scaling : vec; r_z0 : vec; r_z1 : vec; r_z2 : vec; r_yc0 : vec; r_yc1 : vec; r_yc2 : vec }.

(** radau5.rs:124-183 ([j0]: the new, empty matrix) *)
Definition radau_new (j0 : J) (p : params) : radau :=
  mkRad p j0 None None false false false 1%R (theta_max (p_radau5 p)) (zeros ndim) (zeros ndim) (zeros ndim) (zeros ndim) (zeros ndim) (zeros ndim) (zeros ndim) (zeros ndim).

Definition set_acc (k sc : vec) (s : radau) : radau :=
  mkRad (r_params s) (r_jj s) (r_real s) (r_comp s) (r_reuse_jac s) (r_reuse_all s) (r_computed s) (r_eta s) (r_theta s) k sc (r_z0 s) (r_z1 s) (r_z2 s) (r_yc0 s) (r_yc1 s) (r_yc2 s).
Definition set_mats (j : J) (a : option FR) (b : option FC) (s : radau) : radau :=
  mkRad (r_params s) j a b (r_reuse_jac s) (r_reuse_all s) (r_computed s) (r_eta s) (r_theta s) (r_kacc s) (r_scaling s) (r_z0 s) (r_z1 s) (r_z2 s) (r_yc0 s) (r_yc1 s) (r_yc2 s).
Definition set_flags (rj ra cp : bool) (s : radau) : radau :=
  mkRad (r_params s) (r_jj s) (r_real s) (r_comp s) rj ra cp (r_eta s) (r_theta s) (r_kacc s) (r_scaling s) (r_z0 s) (r_z1 s) (r_z2 s) (r_yc0 s) (r_yc1 s) (r_yc2 s).
Definition set_newton (eta theta : R) (z0 z1 z2 : vec) (s : radau) : radau :=
  mkRad (r_params s) (r_jj s) (r_real s) (r_comp s) (r_reuse_jac s) (r_reuse_all s) (r_computed s) eta theta (r_kacc s) (r_scaling s) z0 z1 z2 (r_yc0 s) (r_yc1 s) (r_yc2 s).
Definition set_yc (a b c : vec) (s : radau) : radau :=
  mkRad (r_params s) (r_jj s) (r_real s) (r_comp s) (r_reuse_jac s) (r_reuse_all s) (r_computed s) (r_eta s) (r_theta s) (r_kacc s) (r_scaling s) (r_z0 s) (r_z1 s) (r_z2 s) a b c.

(** radau5.rs:186-192 *)
Definition radau_initialize (s : radau) (w : workspace) (x : R) (y : vec) : res (radau * workspace) :=
  sc <- tab1 ndim (fun yi => t_abs (p_tol (r_params s)) + t_rel (p_tol (r_params s)) * Rabs yi)%R y ;;
  k <- f x y ;;
  Ok (set_acc k sc s, add_n_function 1 w).

(** radau5.rs:195-257, and the factorization radau5.rs:347-359 *)
Definition radau_matrices (s : radau) (w : workspace) (x : R) (y : vec) (h : R) : res (radau * workspace) :=
  if r_reuse_all s then Ok (set_flags (r_reuse_jac s) false (r_computed s) s, w)
  else
    '(s, w) <- (if r_reuse_jac s then Ok (set_flags false (r_reuse_all s) (r_computed s) s, w)
                else if negb (r_computed s) then
                  let w := add_jacobian w in
                  let w := if use_numerical_jacobian (p_newton (r_params s)) || negb has_jacobian then add_n_function ndim w else w in
                  j <- jac x y ;;
                  Ok (set_flags (r_reuse_jac s) (r_reuse_all s) true (set_mats j (r_real s) (r_comp s) s), w)
                else Ok (s, w)) ;;
    _ <- (match write_after with
          | Some n => if n <? n_accepted (w_stats w) then Err "MATRIX FILES GENERATED in /tmp/russell_ode/" else Ok tt
          | None => Ok tt
          end) ;;
    let w := add_factor w in
    let a := factorize_real (r_jj s) (GAMMA / h)%R in
    let b := factorize_comp (r_jj s) (ALPHA / h)%R (BETA / h)%R in
    '(fr, fc) <- (if concurrent then join2 "real and complex factorizations failed" "real factorizations failed" "complex factorizations failed" a b
                  else seq2 a b) ;;
    Ok (set_mats (r_jj s) (Some fr) (Some fc) s, w).

(** radau5.rs:366-390: starting values (z0, z1, z2, w0, w1, w2) *)
Definition radau_start (s : radau) (w : workspace) (h : R) : res (vec * vec * vec * vec * vec * vec) :=
  if (n_accepted (w_stats w) =? 0) || zero_trial (p_radau5 (r_params s)) then
    Ok (zeros ndim, zeros ndim, zeros ndim, zeros ndim, zeros ndim, zeros ndim)
  else
    let c3q := (h / w_h_prev w)%R in
    let c1q := (MU1 * c3q)%R in
    let c2q := (MU2 * c3q)%R in
    let p c y0 y1 y2 := (c * (y0 + (c - MU4) * (y1 + (c - MU3) * y2)))%R in
    z0 <- tab3 ndim (p c1q) (r_yc0 s) (r_yc1 s) (r_yc2 s) ;;
    z1 <- tab3 ndim (p c2q) (r_yc0 s) (r_yc1 s) (r_yc2 s) ;;
    z2 <- tab3 ndim (p c3q) (r_yc0 s) (r_yc1 s) (r_yc2 s) ;;
    w0 <- tab3 ndim (fun a b c => TI00 * a + TI01 * b + TI02 * c)%R z0 z1 z2 ;;
    w1 <- tab3 ndim (fun a b c => TI10 * a + TI11 * b + TI12 * c)%R z0 z1 z2 ;;
    w2 <- tab3 ndim (fun a b c => TI20 * a + TI21 * b + TI22 * c)%R z0 z1 z2 ;;
    Ok (z0, z1, z2, w0, w1, w2).

(** product with the mass matrix (identity if there is none) *)
Definition mass_mul (v : vec) : res vec := match mass with Some m => m v | None => Ok v end.

(** radau5.rs:443-451 *)
Definition radau_lin_sol (s : radau) (v0 v1 v2 : vec) : res (vec * vec * vec) :=
  let a := match r_real s with Some fr => solve_real fr v0 | None => Err "the function factorize must be called before solve" end in
  let b := match r_comp s with Some fc => solve_comp fc v1 v2 | None => Err "the function factorize must be called before solve" end in
  '(dw0, (dw1, dw2)) <- (if concurrent then join2 "real and complex solutions failed" "real solution failed" "complex solution failed" a b else seq2 a b) ;;
  Ok (dw0, dw1, dw2).

(** radau5.rs:411-461: one iteration; (w0, w1, w2, z0, z1, z2, ldw) *)
Definition radau_correct (s : radau) (x : R) (y : vec) (h : R) (z0 z1 z2 w0 w1 w2 : vec) : res (vec * vec * vec * vec * vec * vec * R) :=
  let alpha := (ALPHA / h)%R in let beta := (BETA / h)%R in let gamma := (GAMMA / h)%R in
  a0 <- tab2 ndim Rplus y z0 ;; a1 <- tab2 ndim Rplus y z1 ;; a2 <- tab2 ndim Rplus y z2 ;;
  k0 <- f (x + C0 * h)%R a0 ;; k1 <- f (x + C1 * h)%R a1 ;; k2 <- f (x + C2 * h)%R a2 ;;
  l0 <- mass_mul w0 ;; l1 <- mass_mul w1 ;; l2 <- mass_mul w2 ;;
  v0 <- tab4 ndim (fun a b c l => TI00 * a + TI01 * b + TI02 * c - gamma * l)%R k0 k1 k2 l0 ;;
  v1 <- tab4 ndim (fun a b c l => TI10 * a + TI11 * b + TI12 * c - alpha * l)%R k0 k1 k2 l1 ;;
  v1 <- tab2 ndim (fun a l => a + beta * l)%R v1 l2 ;;
  v2 <- tab4 ndim (fun a b c l => TI20 * a + TI21 * b + TI22 * c - beta * l)%R k0 k1 k2 l1 ;;
  v2 <- tab2 ndim (fun a l => a - alpha * l)%R v2 l2 ;;
  '(dw0, dw1, dw2) <- radau_lin_sol s v0 v1 v2 ;;
  w0 <- tab2 ndim Rplus w0 dw0 ;; w1 <- tab2 ndim Rplus w1 dw1 ;; w2 <- tab2 ndim Rplus w2 dw2 ;;
  z0 <- tab3 ndim (fun a b c => T00 * a + T01 * b + T02 * c)%R w0 w1 w2 ;;
  z1 <- tab3 ndim (fun a b c => T10 * a + T11 * b + T12 * c)%R w0 w1 w2 ;;
  z2 <- tab3 ndim (fun a b c => T20 * a + T21 * b + T22 * c)%R w0 w1 w2 ;;
  ldw <- for_range 0 ndim (fun m acc => d0 <- vget dw0 m ;; d1 <- vget dw1 m ;; d2 <- vget dw2 m ;; sc <- vget (r_scaling s) m ;;
           Ok (acc + (d0 / sc * (d0 / sc) + d1 / sc * (d1 / sc) + d2 / sc * (d2 / sc)))%R) 0%R ;;
  Ok (w0, w1, w2, z0, z1, z2, sqrt (ldw / (3 * INR ndim))%R).

Inductive newton_end := Converged | Diverging | NotConverged.

(** radau5.rs:406-525; [n]: the remaining iterations. The state carries z; the result says how the loop ended *)
Fixpoint radau_iterate (n : nat) (s : radau) (w : workspace) (x : R) (y : vec) (h : R) (w0 w1 w2 : vec) (ldw_old thq_old : R)
    : res (newton_end * radau * workspace) :=
  match n with
  | 0 => Ok (NotConverged, s, w)
  | S n =>
    let w := add_lin_sol (add_n_function 3 (add_iteration w)) in
    '(w0, w1, w2, z0, z1, z2, ldw) <- radau_correct s x y h (r_z0 s) (r_z1 s) (r_z2 s) w0 w1 w2 ;;
    let newt := n_iterations (w_stats w) in
    let nit := n_iteration_max (p_newton (r_params s)) in
    let check := (1 <? newt) && (newt <? nit) in
    let thq := (ldw / ldw_old)%R in
    let theta := if check then (if newt =? 2 then thq else sqrt (thq * thq_old)) else r_theta s in
    let eta := if check && Rltb theta 0.99 then (theta / (1 - theta))%R else r_eta s in
    let rel_err := (eta * ldw * powf theta (INR (nit - 1 - newt)) / t_newton (p_tol (r_params s)))%R in
    let s := set_newton eta theta z0 z1 z2 s in
    if check && negb (Rltb theta 0.99) then Ok (Diverging, s, set_w_diverging true (set_w_mult 0.5 w))
    else if check && Rleb 1 rel_err then
      let q_newt := Rmax (1/10^4) (Rmin 20 rel_err) in
      Ok (Diverging, s, set_w_diverging true (set_w_mult (0.8 * powf q_newt (-1 / INR (4 + nit - 1 - newt)))%R w))
    else if Rltb (eta * ldw) (t_newton (p_tol (r_params s))) then Ok (Converged, s, w)
    else radau_iterate n s w x y h w0 w1 w2 ldw (if check then thq else thq_old)
  end.

(** radau5.rs:533-585: error estimate *)
Definition radau_error (s : radau) (w : workspace) (x : R) (y : vec) (h : R) : res workspace :=
  let gamma := (GAMMA / h)%R in
  let lin rhs := match r_real s with Some fr => solve_real fr rhs | None => Err "the function factorize must be called before solve" end in
  ez <- tab3 ndim (fun a b c => E0 * a + E1 * b + E2 * c)%R (r_z0 s) (r_z1 s) (r_z2 s) ;;
  mez0 <- mass_mul ez ;;
  mez <- tab1 ndim (Rmult gamma) mez0 ;;
  rhs <- tab2 ndim Rplus mez (r_kacc s) ;;
  err <- lin rhs ;;
  rel <- rms_norm err (r_scaling s) ;;
  let w := set_w_rel_error rel w in
  if Rltb rel 1 then Ok w
  else if (n_accepted (w_stats w) =? 0) || w_follows_reject w then
    ype <- tab2 ndim Rplus y err ;;
    fpe <- f x ype ;;
    rhs <- tab2 ndim Rplus mez fpe ;;
    err <- lin rhs ;;
    rel <- rms_norm err (r_scaling s) ;;
    Ok (set_w_rel_error rel (add_n_function 1 w))
  else Ok w.

(** radau5.rs:336-586 *)
Definition radau_step (s : radau) (w : workspace) (x : R) (y : vec) (h : R) : res (radau * workspace) :=
  '(s, w) <- (if n_accepted (w_stats w) =? 0 then radau_initialize s w x y else Ok (s, w)) ;;
  '(s, w) <- radau_matrices s w x y h ;;
  '(z0, z1, z2, w0, w1, w2) <- radau_start s w h ;;
  let eta := powf (Rmax (r_eta s) EPSILON) 0.8 in
  let s := set_newton eta (theta_max (p_radau5 (r_params s))) z0 z1 z2 s in
  let w := on_stats (set_n_iterations 0) (set_w_diverging false w) in
  '(e, s, w) <- radau_iterate (n_iteration_max (p_newton (r_params s))) s w x y h w0 w1 w2 0 0 ;;
  match e with
  | Diverging => Ok (s, w)
  | NotConverged => Err "Newton-Raphson method did not complete successfully"
  | Converged =>
    let w := update_n_iterations_max w in
    w <- radau_error s w x y h ;;
    Ok (s, w)
  end.

(** radau5.rs:611-618 and 657-664: the divisor of the stepsize *)
Definition radau_div (p : params) (w : workspace) : R :=
  let newt := n_iterations (w_stats w) in
  let num := (m_safety (p_step p) * INR (1 + 2 * n_iteration_max (p_newton p)))%R in
  let den := INR (newt + 2 * n_iteration_max (p_newton p)) in
  let fac := Rmin (m_safety (p_step p)) (num / den) in
  Rmax (m_min (p_step p)) (Rmin (m_max (p_step p)) (powf (w_rel_error w) 0.25 / fac)).

(** radau5.rs:610-631: the candidate for the new stepsize *)
Definition radau_candidate (p : params) (w : workspace) (h : R) : R :=
  let div := radau_div p w in
  if use_pred_control (p_radau5 p) && (1 <? n_accepted (w_stats w)) then
    let r2 := (w_rel_error w * w_rel_error w)%R in
    let fac := ((w_h_prev w / h) * powf (r2 / w_rel_error_prev w) 0.25 / m_safety (p_step p))%R in
    let fac := Rmax (m_min (p_step p)) (Rmin (m_max (p_step p)) fac) in
    (h / Rmax div fac)%R
  else (h / div)%R.

(** radau5.rs:589-652 *)
Definition radau_accept (s : radau) (w : workspace) (x : R) (y : vec) (h : R) : res (radau * workspace * R * vec) :=
  let p := r_params s in
  y <- tab2 ndim Rplus y (r_z2 s) ;;
  yc0 <- tab2 ndim (fun z1 z2 => (z1 - z2) / MU4)%R (r_z1 s) (r_z2 s) ;;
  yc1 <- tab3 ndim (fun z0 z1 c0 => ((z0 - z1) / MU5 - c0) / MU3)%R (r_z0 s) (r_z1 s) yc0 ;;
  yc2 <- tab3 ndim (fun z0 z1 c1 => c1 - ((z0 - z1) / MU5 - z0 / MU1) / MU2)%R (r_z0 s) (r_z1 s) yc1 ;;
  let h_new := radau_candidate p w h in
  let h_ratio := (h_new / h)%R in
  let reuse := Rleb (r_theta s) (theta_max (p_radau5 p)) && Rleb (c1h (p_radau5 p)) h_ratio && Rleb h_ratio (c2h (p_radau5 p)) in
  let w := if reuse then w else set_w_h_new h_new w in
  let reuse_jac := if reuse then false else Rleb (r_theta s) (theta_max (p_radau5 p)) in
  let s := set_yc yc0 yc1 yc2 (set_flags reuse_jac reuse false s) in
  let x := (x + h)%R in
  '(s, w) <- radau_initialize s w x y ;;
  Ok (s, w, x, y).

(** radau5.rs:655-666 *)
Definition radau_reject (s : radau) (w : workspace) (h : R) : radau * workspace :=
  (s, set_w_h_new (h / radau_div (r_params s) w)%R w).

(** radau5.rs:669-675 *)
Definition radau_dense (s : radau) (x_out x : R) (y : vec) (h : R) : res vec :=
  _ <- assert_ (Rleb (x - h) x_out && Rleb x_out x) ;;
  let t := ((x_out - x) / h)%R in
  tab4 ndim (fun ym c0 c1 c2 => ym + t * (c0 + (t - MU4) * (c1 + (t - MU3) * c2)))%R y (r_yc0 s) (r_yc1 s) (r_yc2 s).

Definition radau_ops : method_ops radau := mkOps radau (fun s => Ok s) radau_step radau_accept radau_reject radau_dense.
End Radau.
Arguments mkRad {J FR FC}. Arguments r_params {J FR FC}. Arguments r_jj {J FR FC}. Arguments r_real {J FR FC}. Arguments r_comp {J FR FC}.
Arguments r_reuse_jac {J FR FC}. Arguments r_reuse_all {J FR FC}. Arguments r_computed {J FR FC}. Arguments r_eta {J FR FC}. Arguments r_theta {J FR FC}.
Arguments r_kacc {J FR FC}. Arguments r_scaling {J FR FC}. Arguments r_z0 {J FR FC}. Arguments r_z1 {J FR FC}. Arguments r_z2 {J FR FC}.
Arguments r_yc0 {J FR FC}. Arguments r_yc1 {J FR FC}. Arguments r_yc2 {J FR FC}.
Arguments radau_new ndim {J FR FC}. Arguments set_acc {J FR FC}. Arguments set_mats {J FR FC}. Arguments set_flags {J FR FC}. Arguments set_newton {J FR FC}. Arguments set_yc {J FR FC}.
