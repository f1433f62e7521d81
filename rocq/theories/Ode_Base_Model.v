(** russell_ode: parameters, statistics, workspace and stiffness detection
    (params.rs, stats.rs, workspace.rs, detect_stiffness.rs).
    f64 is read as R (exact arithmetic); the stopwatches are not modelled. *)
From Verif Require Export RBase Erk_Tab_Model.
Open Scope nat_scope.

Definition vec := list R.

(** f64::EPSILON *)
Definition EPSILON : R := (/ 2 ^ 52)%R.

(** params.rs:5-15 `ParamsTol` *)
Record params_tol := mkTol {
  t_abs : R;
  t_rel : R;
  t_newton : R }.
Definition set_t_abs (v : R) (r : params_tol) : params_tol :=
  mkTol v (t_rel r) (t_newton r).
Definition set_t_rel (v : R) (r : params_tol) : params_tol :=
  mkTol (t_abs r) v (t_newton r).
Definition set_t_newton (v : R) (r : params_tol) : params_tol :=
  mkTol (t_abs r) (t_rel r) v.

(** params.rs:18-54 `ParamsNewton` (solver selection omitted) *)
Record params_newton := mkNewton {
  n_iteration_max : nat;
  use_numerical_jacobian : bool }.
Definition set_n_iteration_max (v : nat) (r : params_newton) : params_newton :=
  mkNewton v (use_numerical_jacobian r).
Definition set_use_numerical_jacobian (v : bool) (r : params_newton) : params_newton :=
  mkNewton (n_iteration_max r) v.

(** params.rs:57-109 `ParamsStep` *)
Record params_step := mkStep {
  m_min : R;
  m_max : R;
  m_safety : R;
  m_first_reject : R;
  h_ini : R;
  n_step_max : nat;
  rel_error_prev_min : R }.
Definition set_m_min (v : R) (r : params_step) : params_step :=
  mkStep v (m_max r) (m_safety r) (m_first_reject r) (h_ini r) (n_step_max r) (rel_error_prev_min r).
Definition set_m_max (v : R) (r : params_step) : params_step :=
  mkStep (m_min r) v (m_safety r) (m_first_reject r) (h_ini r) (n_step_max r) (rel_error_prev_min r).
Definition set_m_safety (v : R) (r : params_step) : params_step :=
  mkStep (m_min r) (m_max r) v (m_first_reject r) (h_ini r) (n_step_max r) (rel_error_prev_min r).
Definition set_m_first_reject (v : R) (r : params_step) : params_step :=
  mkStep (m_min r) (m_max r) (m_safety r) v (h_ini r) (n_step_max r) (rel_error_prev_min r).
Definition set_h_ini (v : R) (r : params_step) : params_step :=
  mkStep (m_min r) (m_max r) (m_safety r) (m_first_reject r) v (n_step_max r) (rel_error_prev_min r).
Definition set_n_step_max (v : nat) (r : params_step) : params_step :=
  mkStep (m_min r) (m_max r) (m_safety r) (m_first_reject r) (h_ini r) v (rel_error_prev_min r).
Definition set_rel_error_prev_min (v : R) (r : params_step) : params_step :=
  mkStep (m_min r) (m_max r) (m_safety r) (m_first_reject r) (h_ini r) (n_step_max r) v.

(** params.rs:112-144 `ParamsStiffness`; h_times_rho_max: [None] is -infinity *)
Record params_stiff := mkStiff {
  ps_enabled : bool;
  ps_stop_with_error : bool;
  ps_save_results : bool;
  ps_ratified_after_nstep : nat;
  ps_ignored_after_nstep : nat;
  ps_skip_first : nat;
  ps_h_times_rho_max : option R }.
Definition set_ps_enabled (v : bool) (r : params_stiff) : params_stiff :=
  mkStiff v (ps_stop_with_error r) (ps_save_results r) (ps_ratified_after_nstep r) (ps_ignored_after_nstep r) (ps_skip_first r) (ps_h_times_rho_max r).
Definition set_ps_stop_with_error (v : bool) (r : params_stiff) : params_stiff :=
  mkStiff (ps_enabled r) v (ps_save_results r) (ps_ratified_after_nstep r) (ps_ignored_after_nstep r) (ps_skip_first r) (ps_h_times_rho_max r).
Definition set_ps_save_results (v : bool) (r : params_stiff) : params_stiff :=
  mkStiff (ps_enabled r) (ps_stop_with_error r) v (ps_ratified_after_nstep r) (ps_ignored_after_nstep r) (ps_skip_first r) (ps_h_times_rho_max r).
Definition set_ps_ratified_after_nstep (v : nat) (r : params_stiff) : params_stiff :=
  mkStiff (ps_enabled r) (ps_stop_with_error r) (ps_save_results r) v (ps_ignored_after_nstep r) (ps_skip_first r) (ps_h_times_rho_max r).
Definition set_ps_ignored_after_nstep (v : nat) (r : params_stiff) : params_stiff :=
  mkStiff (ps_enabled r) (ps_stop_with_error r) (ps_save_results r) (ps_ratified_after_nstep r) v (ps_skip_first r) (ps_h_times_rho_max r).
Definition set_ps_skip_first (v : nat) (r : params_stiff) : params_stiff :=
  mkStiff (ps_enabled r) (ps_stop_with_error r) (ps_save_results r) (ps_ratified_after_nstep r) (ps_ignored_after_nstep r) v (ps_h_times_rho_max r).
Definition set_ps_h_times_rho_max (v : option R) (r : params_stiff) : params_stiff :=
  mkStiff (ps_enabled r) (ps_stop_with_error r) (ps_save_results r) (ps_ratified_after_nstep r) (ps_ignored_after_nstep r) (ps_skip_first r) v.

(** params.rs:154-185 `ParamsRadau5` *)
Record params_radau5 := mkRadau {
  zero_trial : bool;
  theta_max : R;
  c1h : R;
  c2h : R;
  use_pred_control : bool }.
Definition set_zero_trial (v : bool) (r : params_radau5) : params_radau5 :=
  mkRadau v (theta_max r) (c1h r) (c2h r) (use_pred_control r).
Definition set_theta_max (v : R) (r : params_radau5) : params_radau5 :=
  mkRadau (zero_trial r) v (c1h r) (c2h r) (use_pred_control r).
Definition set_c1h (v : R) (r : params_radau5) : params_radau5 :=
  mkRadau (zero_trial r) (theta_max r) v (c2h r) (use_pred_control r).
Definition set_c2h (v : R) (r : params_radau5) : params_radau5 :=
  mkRadau (zero_trial r) (theta_max r) (c1h r) v (use_pred_control r).
Definition set_use_pred_control (v : bool) (r : params_radau5) : params_radau5 :=
  mkRadau (zero_trial r) (theta_max r) (c1h r) (c2h r) v.

(** params.rs:188-203 `ParamsERK` *)
Record params_erk := mkErkP {
  lund_beta : R;
  lund_m : R }.
Definition set_lund_beta (v : R) (r : params_erk) : params_erk :=
  mkErkP v (lund_m r).
Definition set_lund_m (v : R) (r : params_erk) : params_erk :=
  mkErkP (lund_beta r) v.

(** params.rs:220-248 `Params` (bweuler: one flag; debug printing omitted) *)
Record params := mkParams {
  p_method : method;
  p_tol : params_tol;
  p_newton : params_newton;
  p_step : params_step;
  p_stiff : params_stiff;
  p_modified_newton : bool;
  p_radau5 : params_radau5;
  p_erk : params_erk }.
Definition set_p_method (v : method) (r : params) : params :=
  mkParams v (p_tol r) (p_newton r) (p_step r) (p_stiff r) (p_modified_newton r) (p_radau5 r) (p_erk r).
Definition set_p_tol (v : params_tol) (r : params) : params :=
  mkParams (p_method r) v (p_newton r) (p_step r) (p_stiff r) (p_modified_newton r) (p_radau5 r) (p_erk r).
Definition set_p_newton (v : params_newton) (r : params) : params :=
  mkParams (p_method r) (p_tol r) v (p_step r) (p_stiff r) (p_modified_newton r) (p_radau5 r) (p_erk r).
Definition set_p_step (v : params_step) (r : params) : params :=
  mkParams (p_method r) (p_tol r) (p_newton r) v (p_stiff r) (p_modified_newton r) (p_radau5 r) (p_erk r).
Definition set_p_stiff (v : params_stiff) (r : params) : params :=
  mkParams (p_method r) (p_tol r) (p_newton r) (p_step r) v (p_modified_newton r) (p_radau5 r) (p_erk r).
Definition set_p_modified_newton (v : bool) (r : params) : params :=
  mkParams (p_method r) (p_tol r) (p_newton r) (p_step r) (p_stiff r) v (p_radau5 r) (p_erk r).
Definition set_p_radau5 (v : params_radau5) (r : params) : params :=
  mkParams (p_method r) (p_tol r) (p_newton r) (p_step r) (p_stiff r) (p_modified_newton r) v (p_erk r).
Definition set_p_erk (v : params_erk) (r : params) : params :=
  mkParams (p_method r) (p_tol r) (p_newton r) (p_step r) (p_stiff r) (p_modified_newton r) (p_radau5 r) v.

(** stats.rs:7-70 `Stats` (timings omitted) *)
Record stats := mkStats {
  n_function : nat;
  n_jacobian : nat;
  n_factor : nat;
  n_lin_sol : nat;
  n_steps : nat;
  n_accepted : nat;
  n_rejected : nat;
  n_iterations : nat;
  n_iterations_max : nat;
  h_accepted : R }.
Definition set_n_function (v : nat) (r : stats) : stats :=
  mkStats v (n_jacobian r) (n_factor r) (n_lin_sol r) (n_steps r) (n_accepted r) (n_rejected r) (n_iterations r) (n_iterations_max r) (h_accepted r).
Definition set_n_jacobian (v : nat) (r : stats) : stats :=
  mkStats (n_function r) v (n_factor r) (n_lin_sol r) (n_steps r) (n_accepted r) (n_rejected r) (n_iterations r) (n_iterations_max r) (h_accepted r).
Definition set_n_factor (v : nat) (r : stats) : stats :=
  mkStats (n_function r) (n_jacobian r) v (n_lin_sol r) (n_steps r) (n_accepted r) (n_rejected r) (n_iterations r) (n_iterations_max r) (h_accepted r).
Definition set_n_lin_sol (v : nat) (r : stats) : stats :=
  mkStats (n_function r) (n_jacobian r) (n_factor r) v (n_steps r) (n_accepted r) (n_rejected r) (n_iterations r) (n_iterations_max r) (h_accepted r).
Definition set_n_steps (v : nat) (r : stats) : stats :=
  mkStats (n_function r) (n_jacobian r) (n_factor r) (n_lin_sol r) v (n_accepted r) (n_rejected r) (n_iterations r) (n_iterations_max r) (h_accepted r).
Definition set_n_accepted (v : nat) (r : stats) : stats :=
  mkStats (n_function r) (n_jacobian r) (n_factor r) (n_lin_sol r) (n_steps r) v (n_rejected r) (n_iterations r) (n_iterations_max r) (h_accepted r).
Definition set_n_rejected (v : nat) (r : stats) : stats :=
  mkStats (n_function r) (n_jacobian r) (n_factor r) (n_lin_sol r) (n_steps r) (n_accepted r) v (n_iterations r) (n_iterations_max r) (h_accepted r).
Definition set_n_iterations (v : nat) (r : stats) : stats :=
  mkStats (n_function r) (n_jacobian r) (n_factor r) (n_lin_sol r) (n_steps r) (n_accepted r) (n_rejected r) v (n_iterations_max r) (h_accepted r).
Definition set_n_iterations_max (v : nat) (r : stats) : stats :=
  mkStats (n_function r) (n_jacobian r) (n_factor r) (n_lin_sol r) (n_steps r) (n_accepted r) (n_rejected r) (n_iterations r) v (h_accepted r).
Definition set_h_accepted (v : R) (r : stats) : stats :=
  mkStats (n_function r) (n_jacobian r) (n_factor r) (n_lin_sol r) (n_steps r) (n_accepted r) (n_rejected r) (n_iterations r) (n_iterations_max r) v.

(** workspace.rs:4-43 `Workspace`; stiff_x_first_detect: [None] is f64::MAX *)
Record workspace := mkWork {
  w_stats : stats;
  w_follows_reject : bool;
  w_diverging : bool;
  w_h_mult : R;
  w_h_prev : R;
  w_h_new : R;
  w_rel_error_prev : R;
  w_rel_error : R;
  w_stiff_x : option R;
  w_stiff_hrho : R;
  w_stiff_no : nat;
  w_stiff_yes : nat;
  w_stiff_detected : bool }.
Definition set_w_stats (v : stats) (r : workspace) : workspace :=
  mkWork v (w_follows_reject r) (w_diverging r) (w_h_mult r) (w_h_prev r) (w_h_new r) (w_rel_error_prev r) (w_rel_error r) (w_stiff_x r) (w_stiff_hrho r) (w_stiff_no r) (w_stiff_yes r) (w_stiff_detected r).
Definition set_w_follows_reject (v : bool) (r : workspace) : workspace :=
  mkWork (w_stats r) v (w_diverging r) (w_h_mult r) (w_h_prev r) (w_h_new r) (w_rel_error_prev r) (w_rel_error r) (w_stiff_x r) (w_stiff_hrho r) (w_stiff_no r) (w_stiff_yes r) (w_stiff_detected r).
Definition set_w_diverging (v : bool) (r : workspace) : workspace :=
  mkWork (w_stats r) (w_follows_reject r) v (w_h_mult r) (w_h_prev r) (w_h_new r) (w_rel_error_prev r) (w_rel_error r) (w_stiff_x r) (w_stiff_hrho r) (w_stiff_no r) (w_stiff_yes r) (w_stiff_detected r).
Definition set_w_h_mult (v : R) (r : workspace) : workspace :=
  mkWork (w_stats r) (w_follows_reject r) (w_diverging r) v (w_h_prev r) (w_h_new r) (w_rel_error_prev r) (w_rel_error r) (w_stiff_x r) (w_stiff_hrho r) (w_stiff_no r) (w_stiff_yes r) (w_stiff_detected r).
Definition set_w_h_prev (v : R) (r : workspace) : workspace :=
  mkWork (w_stats r) (w_follows_reject r) (w_diverging r) (w_h_mult r) v (w_h_new r) (w_rel_error_prev r) (w_rel_error r) (w_stiff_x r) (w_stiff_hrho r) (w_stiff_no r) (w_stiff_yes r) (w_stiff_detected r).
Definition set_w_h_new (v : R) (r : workspace) : workspace :=
  mkWork (w_stats r) (w_follows_reject r) (w_diverging r) (w_h_mult r) (w_h_prev r) v (w_rel_error_prev r) (w_rel_error r) (w_stiff_x r) (w_stiff_hrho r) (w_stiff_no r) (w_stiff_yes r) (w_stiff_detected r).
Definition set_w_rel_error_prev (v : R) (r : workspace) : workspace :=
  mkWork (w_stats r) (w_follows_reject r) (w_diverging r) (w_h_mult r) (w_h_prev r) (w_h_new r) v (w_rel_error r) (w_stiff_x r) (w_stiff_hrho r) (w_stiff_no r) (w_stiff_yes r) (w_stiff_detected r).
Definition set_w_rel_error (v : R) (r : workspace) : workspace :=
  mkWork (w_stats r) (w_follows_reject r) (w_diverging r) (w_h_mult r) (w_h_prev r) (w_h_new r) (w_rel_error_prev r) v (w_stiff_x r) (w_stiff_hrho r) (w_stiff_no r) (w_stiff_yes r) (w_stiff_detected r).
Definition set_w_stiff_x (v : option R) (r : workspace) : workspace :=
  mkWork (w_stats r) (w_follows_reject r) (w_diverging r) (w_h_mult r) (w_h_prev r) (w_h_new r) (w_rel_error_prev r) (w_rel_error r) v (w_stiff_hrho r) (w_stiff_no r) (w_stiff_yes r) (w_stiff_detected r).
Definition set_w_stiff_hrho (v : R) (r : workspace) : workspace :=
  mkWork (w_stats r) (w_follows_reject r) (w_diverging r) (w_h_mult r) (w_h_prev r) (w_h_new r) (w_rel_error_prev r) (w_rel_error r) (w_stiff_x r) v (w_stiff_no r) (w_stiff_yes r) (w_stiff_detected r).
Definition set_w_stiff_no (v : nat) (r : workspace) : workspace :=
  mkWork (w_stats r) (w_follows_reject r) (w_diverging r) (w_h_mult r) (w_h_prev r) (w_h_new r) (w_rel_error_prev r) (w_rel_error r) (w_stiff_x r) (w_stiff_hrho r) v (w_stiff_yes r) (w_stiff_detected r).
Definition set_w_stiff_yes (v : nat) (r : workspace) : workspace :=
  mkWork (w_stats r) (w_follows_reject r) (w_diverging r) (w_h_mult r) (w_h_prev r) (w_h_new r) (w_rel_error_prev r) (w_rel_error r) (w_stiff_x r) (w_stiff_hrho r) (w_stiff_no r) v (w_stiff_detected r).
Definition set_w_stiff_detected (v : bool) (r : workspace) : workspace :=
  mkWork (w_stats r) (w_follows_reject r) (w_diverging r) (w_h_mult r) (w_h_prev r) (w_h_new r) (w_rel_error_prev r) (w_rel_error r) (w_stiff_x r) (w_stiff_hrho r) (w_stiff_no r) (w_stiff_yes r) v.

(** stats.rs:74-98 `Stats::new` *)
Definition stats_new : stats := mkStats 0 0 0 0 0 0 0 0 0 0%R.
(** stats.rs:101-117 `Stats::reset` *)
Definition stats_reset (h : R) (s : stats) : stats := mkStats 0 0 0 0 0 0 0 0 0 h.
(** stats.rs:158-162 `Stats::update_n_iterations_max` *)
Definition update_n_iterations_max (s : stats) : stats :=
  if n_iterations_max s <? n_iterations s then set_n_iterations_max (n_iterations s) s else s.

(** workspace.rs:47-63 `Workspace::new` *)
Definition workspace_new : workspace :=
  mkWork stats_new false false 1%R 0%R 0%R 0%R 0%R None 0%R 0 0 false.
(** workspace.rs:66-80 `Workspace::reset` *)
Definition workspace_reset (h rel_error_prev_min : R) (w : workspace) : workspace :=
  mkWork (stats_reset h (w_stats w)) false false 1%R h h rel_error_prev_min 0%R None 0%R 0 0 false.

(** read-modify-write of a counter of work.stats *)
Definition on_stats (g : stats -> stats) (w : workspace) : workspace := set_w_stats (g (w_stats w)) w.
Definition add_n_function (n : nat) (w : workspace) : workspace := on_stats (fun s => set_n_function (n_function s + n) s) w.
Definition add_n_steps (w : workspace) : workspace := on_stats (fun s => set_n_steps (n_steps s + 1) s) w.
Definition add_n_accepted (w : workspace) : workspace := on_stats (fun s => set_n_accepted (n_accepted s + 1) s) w.
Definition add_n_rejected (w : workspace) : workspace := on_stats (fun s => set_n_rejected (n_rejected s + 1) s) w.

(** params.rs:274-279 `ParamsNewton::validate` *)
Definition newton_validate (p : params_newton) : res unit :=
  if n_iteration_max p <? 1 then Err "n_iteration_max" else Ok tt.

(** params.rs:303-326 `ParamsStep::validate` *)
Definition step_validate (p : params_step) : res unit :=
  if Rltb (m_min p) (1/1000) || Rltb (5/10) (m_min p) || Rleb (m_max p) (m_min p) then Err "m_min"
  else if Rltb (m_max p) (1/100) || Rltb 20 (m_max p) then Err "m_max"
  else if Rltb (m_safety p) (1/10) || Rltb 1 (m_safety p) then Err "m_safety"
  else if Rltb (m_first_reject p) 0 then Err "m_first_reject"
  else if Rltb (h_ini p) (1/10^8) then Err "h_ini"
  else if n_step_max p <? 1 then Err "n_step_max"
  else if Rltb (rel_error_prev_min p) (1/10^8) then Err "rel_error_prev_min"
  else Ok tt.

(** params.rs:387-398 `ParamsRadau5::validate` *)
Definition radau5_validate (p : params_radau5) : res unit :=
  if Rltb (theta_max p) (1/10^7) then Err "theta_max"
  else if Rltb (c1h p) (5/10) || Rltb (15/10) (c1h p) || Rleb (c2h p) (c1h p) then Err "c1h"
  else if Rltb (c2h p) 1 || Rltb 2 (c2h p) then Err "c2h"
  else Ok tt.

(** params.rs:413-421 `ParamsERK::validate` *)
Definition erk_validate (p : params_erk) : res unit :=
  if Rltb (lund_beta p) 0 || Rltb (1/10) (lund_beta p) then Err "lund_beta"
  else if Rltb (lund_m p) 0 || Rltb 1 (lund_m p) then Err "lund_m"
  else Ok tt.

(** params.rs:462-468 `Params::validate` *)
Definition params_validate (p : params) : res unit :=
  _ <- newton_validate (p_newton p) ;;
  _ <- step_validate (p_step p) ;;
  _ <- radau5_validate (p_radau5 p) ;;
  erk_validate (p_erk p).

Definition method_eqb (a b : method) : bool :=
  match a, b with
  | Radau5, Radau5 | BwEuler, BwEuler | FwEuler, FwEuler | Rk2, Rk2 | Rk3, Rk3 | Heun3, Heun3 | Rk4, Rk4
  | Rk4alt, Rk4alt | MdEuler, MdEuler | Merson4, Merson4 | Zonneveld4, Zonneveld4 | Fehlberg4, Fehlberg4
  | DoPri5, DoPri5 | Verner6, Verner6 | Fehlberg7, Fehlberg7 | DoPri8, DoPri8 => true
  | _, _ => false
  end.

Section Pow.
(** `f64::powf` *)
Variable powf : R -> R -> R.

(** params.rs:486-510 `calc_tolerances` *)
Definition calc_tolerances (radau5 : bool) (abs_tol rel_tol : R) : res (R * R * R) :=
  if Rleb abs_tol (10 * EPSILON) then Err "the absolute tolerance must be > 10 EPSILON"
  else if Rleb rel_tol (10 * EPSILON) then Err "the relative tolerance must be > 10 EPSILON"
  else
    let quot := (abs_tol / rel_tol)%R in
    let rel_tol' := if radau5 then (1/10 * powf rel_tol (2/3))%R else rel_tol in
    let abs_tol' := if radau5 then (rel_tol' * quot)%R else abs_tol in
    Ok (abs_tol', rel_tol', Rmax (10 * EPSILON / rel_tol') (Rmin (3/100) (sqrt rel_tol'))).

(** params.rs:452-459 `Params::set_tolerances` *)
Definition set_tolerances (p : params) (absolute relative : R) (newton : option R) : res params :=
  '(a, r, n) <- calc_tolerances (method_eqb (p_method p) Radau5) absolute relative ;;
  Ok (set_p_tol (mkTol a r (match newton with Some n' => n' | None => n end)) p).

(** params.rs:254-258, 263-271, 284-300, 331-346, 375-384, 403-410, 426-438: `Params::new`;
    the `unwrap` of calc_tolerances cannot fail for 1e-4, 1e-4 *)
Definition params_new (m : method) : res params :=
  '(a, r, n) <- unwrap (calc_tolerances (method_eqb m Radau5) (1/10^4) (1/10^4)) ;;
  let '(mn, mx, sf, rp) := match m with
    | Radau5 => (125/1000, 5, 9/10, 1/10^2)
    | DoPri8 => (333/1000, 6, 9/10, 1/10^4)
    | _ => (2/10, 10, 9/10, 1/10^4)
    end%R in
  let hr := match m with DoPri5 => Some (325/100)%R | DoPri8 => Some (61/10)%R | _ => None end in
  let '(lb, lm) := match m with DoPri5 => (4/100, 75/100) | DoPri8 => (0, 2/10) | _ => (0, 0) end%R in
  Ok (mkParams m (mkTol a r n) (mkNewton 7 false)
        (mkStep mn mx sf (1/10) (1/10^4) (100 * 1000) rp)
        (mkStiff false true false 15 6 10 hr) false
        (mkRadau false (1/10^3) 1 (12/10) true) (mkErkP lb lm)).
End Pow.

(** detect_stiffness.rs:5-28 *)
Definition detect_stiffness (w : workspace) (x : R) (ps : params_stiff) : res workspace :=
  let w := set_w_stiff_detected false w in
  if n_accepted (w_stats w) <=? ps_skip_first ps then Ok w
  else if (match ps_h_times_rho_max ps with None => true | Some m => Rltb m (w_stiff_hrho w) end) then
    let w := set_w_stiff_x (Some (match w_stiff_x w with None => x | Some x' => Rmin x x' end)) w in
    let w := set_w_stiff_no 0 w in
    let w := set_w_stiff_yes (w_stiff_yes w + 1) w in
    if w_stiff_yes w =? ps_ratified_after_nstep ps then
      let w := set_w_stiff_detected true w in
      if ps_stop_with_error ps then Err "stiffness detected" else Ok w
    else Ok w
  else
    let w := set_w_stiff_no (w_stiff_no w + 1) w in
    if w_stiff_no w =? ps_ignored_after_nstep ps then
      Ok (set_w_stiff_yes 0 (set_w_stiff_x None w))
    else Ok w.
