(** russell_nonlin: numerical continuation.  The driver Solver::solve, the two
    solvers (natural parameter, pseudo-arclength), the iteration error control,
    the stop criteria and the output recorder.

    f64 is read as R; `is_finite` is an arbitrary test [fin] (so that the paths
    taken on NaN/Inf stay in the model).  The user's callbacks and the sparse
    direct solver are oracles.  Log messages and stopwatches are not modelled. *)
From Coq Require Export Reals Lra.
From Verif Require Export Base RBase Sparse_Model.
Local Open Scope nat_scope.

Definition vec := list R.

(* ------------------------------------------------------------------ *)
(** * Computations with a state that survives errors *)

Definition M (E X : Type) := E -> E * res X.
Definition ret {E X} (x : X) : M E X := fun e => (e, Ok x).
Definition lift {E X} (r : res X) : M E X := fun e => (e, r).
Definition mbind {E X Y} (m : M E X) (k : X -> M E Y) : M E Y :=
  fun e => match m e with
           | (e', Ok x) => k x e'
           | (e', Err s) => (e', Err s)
           | (e', Panic) => (e', Panic)
           end.
Definition get {E} : M E E := fun e => (e, Ok e).
Definition modify {E} (f : E -> E) : M E unit := fun e => (f e, Ok tt).
Declare Scope nl_scope.
Delimit Scope nl_scope with nl.
Notation "x <~ e ;; k" := (mbind e (fun x => k)) (at level 61, e at next level, right associativity) : nl_scope.
Notation "e ;;; k" := (mbind e (fun _ => k)) (at level 61, right associativity) : nl_scope.
Open Scope nl_scope.

(** `for i in i..i+n { ... break ... }`; the body says whether it breaks *)
Fixpoint mloop {E X} (n i : nat) (body : nat -> X -> M E (bool * X)) (x : X) : M E X :=
  match n with
  | 0 => ret x
  | S n' =>
      r <~ body i x ;;
      if fst r then ret (snd r) else mloop n' (i + 1) body (snd r)
  end.

(* ------------------------------------------------------------------ *)
(** * Vectors (russell_lab; see LabVec_Model for the BLAS paths) *)

(** vec_norm.rs:36-51 with Norm::Max *)
Definition vmax (v : vec) : R := fold_right (fun x m => Rmax (Rabs x) m) 0%R v.
(** vec_inner *)
Fixpoint inner (u v : vec) : R :=
  match u, v with
  | a :: u', b :: v' => (a * b + inner u' v')%R
  | _, _ => 0%R
  end.
(** vec_norm.rs:36-51 with Norm::Euc *)
Definition vnorm2 (v : vec) : R := sqrt (inner v v).
Fixpoint map2 (f : R -> R -> R) (u v : vec) : vec :=
  match u, v with
  | a :: u', b :: v' => f a b :: map2 f u' v'
  | _, _ => []
  end.
(** vec_copy(v, u).unwrap() *)
Definition vcopy (v u : vec) : res vec := if length u =? length v then Ok u else Panic.
(** vec_add(w, a, u, b, v).unwrap() *)
Definition vadd (w : vec) (a : R) (u : vec) (b : R) (v : vec) : res vec :=
  if (length u =? length w) && (length v =? length w)
  then Ok (map2 (fun x y => a * x + b * y)%R u v) else Panic.
(** vec_update(v, a, u).unwrap() *)
Definition vupdate (v : vec) (a : R) (u : vec) : res vec :=
  if length u =? length v then Ok (map2 (fun x y => y + a * x)%R u v) else Panic.
(** vec_copy_scaled(v, a, u).unwrap() *)
Definition vcopy_scaled (v : vec) (a : R) (u : vec) : res vec :=
  if length u =? length v then Ok (map (fun x => a * x)%R u) else Panic.
(** vec_all_finite.rs:33-43 *)
Definition vall_finite (fin : R -> bool) (v : vec) : res unit :=
  if forallb fin v then Ok tt else Err "an element of the vector is either infinite or NaN".

(** russell_lab enums.rs `Norm` *)
Inductive norm := NEuc | NFro | NInf | NMax | NOne.
(** vec_norm_chunk.rs:45-63 *)
Definition vnorm_chunk (v : vec) (k : norm) (start stop : nat) : res R :=
  if length v =? 0 then Ok 0%R
  else
    _ <- assert_ (start <? stop) ;;
    _ <- assert_ (stop <=? length v) ;;
    let s := firstn (stop - start) (skipn start v) in
    Ok (match k with
        | NEuc | NFro => vnorm2 s
        | NInf | NMax => vmax s
        | NOne => fold_right (fun x a => (Rabs x + a)%R) 0%R s
        end).

(* ------------------------------------------------------------------ *)
(** * enums.rs, config.rs, delta_lambda.rs *)

(** config.rs: CONFIG_H_MIN, CONFIG_TOL_MIN *)
Definition H_MIN : R := (/ 10 ^ 10)%R.
Definition TOL_MIN : R := (/ 10 ^ 12)%R.

(** enums.rs:88-116 `Stop` *)
Inductive stop :=
| MinCompU (i : nat) (u1 : R)
| MaxCompU (i : nat) (u1 : R)
| MaxNormU (n1 : R) (k : norm) (b e : nat)
| MinLambda (l1 : R)
| MaxLambda (l1 : R)
| Steps (n : nat).

(** enums.rs:120-166 `validate` *)
Definition stop_validate (s : stop) (u : vec) (l : R) : res unit :=
  match s with
  | MinCompU i u1 =>
      if length u <=? i then Err "Stop enum error: MinCompU index is out of bounds"
      else
        ui <- vget u i ;;
        if Rleb ui u1 then Err "Stop enum error: MinCompU value must be less than the initial u value" else Ok tt
  | MaxCompU i u1 =>
      if length u <=? i then Err "Stop enum error: MaxCompU index is out of bounds"
      else
        ui <- vget u i ;;
        if Rleb u1 ui then Err "Stop enum error: MaxCompU value must be greater than the initial u value" else Ok tt
  | MaxNormU n1 _ b e =>
      if e <=? b then Err "Stop enum error: MaxNormU: begin must be < end"
      else if length u <? e then Err "Stop enum error: MaxNormU: end must be <= u.dim"
      else if Rleb n1 0 then Err "Stop enum error: MaxNormU value must be greater than 0.0"
      else Ok tt
  | MinLambda l1 =>
      if Rleb l l1 then Err "Stop enum error: MinLambda value must be less than the initial lambda value" else Ok tt
  | MaxLambda l1 =>
      if Rleb l1 l then Err "Stop enum error: MaxLambda value must be greater than the initial lambda value" else Ok tt
  | Steps n => if n <? 1 then Err "Stop enum error: number of steps must be greater than 0" else Ok tt
  end.

(** enums.rs:171-180 `lambda` *)
Definition stop_lambda (s : stop) : option (R * bool) :=
  match s with MinLambda l1 => Some (l1, true) | MaxLambda l1 => Some (l1, false) | _ => None end.
(** enums.rs:185-194 `u_comp` *)
Definition stop_u_comp (s : stop) : option (nat * R * bool) :=
  match s with MinCompU i u1 => Some (i, u1, true) | MaxCompU i u1 => Some (i, u1, false) | _ => None end.

(** enums.rs:197-209 `now` *)
Definition stop_now (s : stop) (step : nat) (u : vec) (l : R) : res bool :=
  match s with
  | MinCompU i u1 => ui <- vget u i ;; Ok (Rltb ui u1 || Rltb (Rabs (ui - u1)) H_MIN)
  | MaxCompU i u1 => ui <- vget u i ;; Ok (Rltb u1 ui || Rltb (Rabs (u1 - ui)) H_MIN)
  | MaxNormU n1 k b e => nu <- vnorm_chunk u k b e ;; Ok (Rltb n1 nu || Rltb (Rabs (nu - n1)) H_MIN)
  | MinLambda l1 => Ok (Rltb l l1 || Rltb (Rabs (l1 - l)) H_MIN)
  | MaxLambda l1 => Ok (Rltb l1 l || Rltb (Rabs (l - l1)) H_MIN)
  | Steps n => Ok (step + 1 =? n)
  end.

(** enums.rs:306-377 `Status` *)
Inductive status :=
| BorderingSmallDenominator
| LargeDelta
| ReachedMaxIterations
| ContinuedResidualDivergence
| ContinuedDeltaDivergence
| Rejection
| SecondaryUpdateError (e : string)
| UnmetStopCriterion
| SmallStepsize
| SecondaryUpdateTerminate
| ContinuedFailure
| ContinuedRejection
| NanOrInfResidual
| NanOrInfDelta
| Success.

(** enums.rs:381-388 *)
Definition success (s : status) : bool := match s with Success => true | _ => false end.
Definition failure (s : status) : bool := negb (success s).
(** enums.rs:391-412 `try_again` *)
Definition try_again (s : status) : bool :=
  match s with
  | BorderingSmallDenominator | LargeDelta | ReachedMaxIterations | ContinuedResidualDivergence
  | ContinuedDeltaDivergence | Rejection | SecondaryUpdateError _ | UnmetStopCriterion => true
  | SmallStepsize | SecondaryUpdateTerminate | ContinuedFailure | ContinuedRejection
  | NanOrInfResidual | NanOrInfDelta => false
  | Success => false
  end.
(** enums.rs:415-426 `from_sup`; a panic of the callback passes through *)
Definition from_sup (r : res bool) : res status :=
  match r with
  | Ok true => Ok SecondaryUpdateTerminate
  | Ok false => Ok Success
  | Err e => Ok (SecondaryUpdateError e)
  | Panic => Panic
  end.

Inductive method := Arclength | Natural.

(** config.rs:13-215 `Config`, without the logging options and the linear solver parameters *)
Record config := mkCfg {
  c_method : method;
  c_record_residuals : bool;
  c_precise : bool;
  c_m_failure : R;
  c_n_step_max : nat;
  c_n_cont_failure_max : nat;
  c_n_cont_rejection_max : nat;
  c_write_matrix : option nat;
  c_tol_abs_residual : R;
  c_tol_abs_delta : R;
  c_tol_rel_delta : R;
  c_delta_max_allowed : R;
  c_disable_rel_delta : bool;
  c_n_iteration_max : nat;
  c_n_cont_r_max : nat;
  c_n_cont_d_max : nat;
  c_euler_predictor : bool;
  c_bordering : bool;
  c_debug_predictor : bool;
  c_nr_control : bool;
  c_tg_control : bool;
  c_tg_pid : bool;
  c_tg_rdiff_min : R;
  c_tg_rho_tiny : R;
  c_nr_n_opt : nat;
  c_nr_beta : R;
  c_rdiff_ave : bool;
  c_tg_tol : R;
  c_beta1 : R;
  c_beta2 : R;
  c_beta3 : R;
  c_alpha2 : R;
  c_alpha3 : R }.

(** config.rs:1017-1070 `validate` *)
Definition config_validate (c : config) : res unit :=
  if Rltb (c_m_failure c) 0.001 then Err "requirement: m_failure >= 0.001"
  else if c_n_step_max c <? 1 then Err "requirement: n_step_max >= 1"
  else if c_n_cont_failure_max c <? 1 then Err "requirement: n_cont_failure_max >= 1"
  else if c_n_cont_rejection_max c <? 1 then Err "requirement: n_cont_rejection_max >= 1"
  else if Rltb (c_tol_abs_residual c) TOL_MIN then Err "requirement: tol_abs_residual >= 1e-12"
  else if Rltb (c_tol_abs_delta c) TOL_MIN then Err "requirement: tol_abs_delta >= 1e-12"
  else if Rltb (c_tol_rel_delta c) TOL_MIN then Err "requirement: tol_rel_delta >= 1e-12"
  else if Rleb (c_delta_max_allowed c) 0 then Err "requirement: allowed_delta_max > 0.0"
  else if c_n_iteration_max c <? 1 then Err "requirement: allowed_iterations >= 1"
  else if c_n_cont_r_max c <? 1 then Err "requirement: n_cont_residual_div_max >= 1"
  else if c_n_cont_d_max c <? 1 then Err "requirement: n_cont_delta_div_max >= 1"
  else if c_nr_n_opt c <? 1 then Err "requirement: nr_control_n_opt >= 1"
  else if Rleb (c_nr_beta c) 0 then Err "requirement: nr_control_beta > 0.0"
  else if Rltb (c_tg_tol c) TOL_MIN then Err "requirement: tg_control_tol >= 1e-12"
  else Ok tt.

(** delta_lambda.rs:15-70 `DeltaLambda` *)
Record delta_lambda := mkDdl { dl_auto : bool; dl_ini : R; dl_list : list R }.
Definition ddl_auto (d : R) : delta_lambda := mkDdl true d [].
Definition ddl_constant (d : R) : delta_lambda := mkDdl false d [].
Definition ddl_list (ds : list R) : res delta_lambda :=
  match ds with [] => Panic | d :: _ => Ok (mkDdl false d ds) end.
(** delta_lambda.rs:81-100 `ini` *)
Definition ddl_initial (d : delta_lambda) (s : stop) (l0 : R) : res R :=
  let v := match s with
           | MinLambda l1 => Rmin (dl_ini d) (Rabs (l0 - l1))
           | MaxLambda l1 => Rmin (dl_ini d) (Rabs (l1 - l0))
           | _ => dl_ini d
           end in
  if Rleb v H_MIN then Err "requirement: ddl_ini > 1e-10" else Ok v.

(* ------------------------------------------------------------------ *)
(** * iteration_error.rs *)

(** iteration_error.rs:5-74; the tolerances are read from the configuration *)
Record iterr := mkErr {
  er_rmax : R;
  er_dmax : R;
  er_drms : R;
  er_rconv : bool;
  er_rdiv : bool;
  er_dconv : bool;
  er_ddiv : bool;
  er_rmax_prev : R;
  er_dmax_prev : R;
  er_prev_rdiv : bool;
  er_prev_ddiv : bool;
  er_n_large : nat;
  er_n_cont_r : nat;
  er_n_cont_d : nat;
  er_scaling : vec }.
Definition set_er_rmax (v : R) (r : iterr) : iterr :=
  mkErr v (er_dmax r) (er_drms r) (er_rconv r) (er_rdiv r) (er_dconv r) (er_ddiv r) (er_rmax_prev r) (er_dmax_prev r) (er_prev_rdiv r) (er_prev_ddiv r) (er_n_large r) (er_n_cont_r r) (er_n_cont_d r) (er_scaling r).
Definition set_er_dmax (v : R) (r : iterr) : iterr :=
  mkErr (er_rmax r) v (er_drms r) (er_rconv r) (er_rdiv r) (er_dconv r) (er_ddiv r) (er_rmax_prev r) (er_dmax_prev r) (er_prev_rdiv r) (er_prev_ddiv r) (er_n_large r) (er_n_cont_r r) (er_n_cont_d r) (er_scaling r).
Definition set_er_drms (v : R) (r : iterr) : iterr :=
  mkErr (er_rmax r) (er_dmax r) v (er_rconv r) (er_rdiv r) (er_dconv r) (er_ddiv r) (er_rmax_prev r) (er_dmax_prev r) (er_prev_rdiv r) (er_prev_ddiv r) (er_n_large r) (er_n_cont_r r) (er_n_cont_d r) (er_scaling r).
Definition set_er_rconv (v : bool) (r : iterr) : iterr :=
  mkErr (er_rmax r) (er_dmax r) (er_drms r) v (er_rdiv r) (er_dconv r) (er_ddiv r) (er_rmax_prev r) (er_dmax_prev r) (er_prev_rdiv r) (er_prev_ddiv r) (er_n_large r) (er_n_cont_r r) (er_n_cont_d r) (er_scaling r).
Definition set_er_rdiv (v : bool) (r : iterr) : iterr :=
  mkErr (er_rmax r) (er_dmax r) (er_drms r) (er_rconv r) v (er_dconv r) (er_ddiv r) (er_rmax_prev r) (er_dmax_prev r) (er_prev_rdiv r) (er_prev_ddiv r) (er_n_large r) (er_n_cont_r r) (er_n_cont_d r) (er_scaling r).
Definition set_er_dconv (v : bool) (r : iterr) : iterr :=
  mkErr (er_rmax r) (er_dmax r) (er_drms r) (er_rconv r) (er_rdiv r) v (er_ddiv r) (er_rmax_prev r) (er_dmax_prev r) (er_prev_rdiv r) (er_prev_ddiv r) (er_n_large r) (er_n_cont_r r) (er_n_cont_d r) (er_scaling r).
Definition set_er_ddiv (v : bool) (r : iterr) : iterr :=
  mkErr (er_rmax r) (er_dmax r) (er_drms r) (er_rconv r) (er_rdiv r) (er_dconv r) v (er_rmax_prev r) (er_dmax_prev r) (er_prev_rdiv r) (er_prev_ddiv r) (er_n_large r) (er_n_cont_r r) (er_n_cont_d r) (er_scaling r).
Definition set_er_rmax_prev (v : R) (r : iterr) : iterr :=
  mkErr (er_rmax r) (er_dmax r) (er_drms r) (er_rconv r) (er_rdiv r) (er_dconv r) (er_ddiv r) v (er_dmax_prev r) (er_prev_rdiv r) (er_prev_ddiv r) (er_n_large r) (er_n_cont_r r) (er_n_cont_d r) (er_scaling r).
Definition set_er_dmax_prev (v : R) (r : iterr) : iterr :=
  mkErr (er_rmax r) (er_dmax r) (er_drms r) (er_rconv r) (er_rdiv r) (er_dconv r) (er_ddiv r) (er_rmax_prev r) v (er_prev_rdiv r) (er_prev_ddiv r) (er_n_large r) (er_n_cont_r r) (er_n_cont_d r) (er_scaling r).
Definition set_er_prev_rdiv (v : bool) (r : iterr) : iterr :=
  mkErr (er_rmax r) (er_dmax r) (er_drms r) (er_rconv r) (er_rdiv r) (er_dconv r) (er_ddiv r) (er_rmax_prev r) (er_dmax_prev r) v (er_prev_ddiv r) (er_n_large r) (er_n_cont_r r) (er_n_cont_d r) (er_scaling r).
Definition set_er_prev_ddiv (v : bool) (r : iterr) : iterr :=
  mkErr (er_rmax r) (er_dmax r) (er_drms r) (er_rconv r) (er_rdiv r) (er_dconv r) (er_ddiv r) (er_rmax_prev r) (er_dmax_prev r) (er_prev_rdiv r) v (er_n_large r) (er_n_cont_r r) (er_n_cont_d r) (er_scaling r).
Definition set_er_n_large (v : nat) (r : iterr) : iterr :=
  mkErr (er_rmax r) (er_dmax r) (er_drms r) (er_rconv r) (er_rdiv r) (er_dconv r) (er_ddiv r) (er_rmax_prev r) (er_dmax_prev r) (er_prev_rdiv r) (er_prev_ddiv r) v (er_n_cont_r r) (er_n_cont_d r) (er_scaling r).
Definition set_er_n_cont_r (v : nat) (r : iterr) : iterr :=
  mkErr (er_rmax r) (er_dmax r) (er_drms r) (er_rconv r) (er_rdiv r) (er_dconv r) (er_ddiv r) (er_rmax_prev r) (er_dmax_prev r) (er_prev_rdiv r) (er_prev_ddiv r) (er_n_large r) v (er_n_cont_d r) (er_scaling r).
Definition set_er_n_cont_d (v : nat) (r : iterr) : iterr :=
  mkErr (er_rmax r) (er_dmax r) (er_drms r) (er_rconv r) (er_rdiv r) (er_dconv r) (er_ddiv r) (er_rmax_prev r) (er_dmax_prev r) (er_prev_rdiv r) (er_prev_ddiv r) (er_n_large r) (er_n_cont_r r) v (er_scaling r).
Definition set_er_scaling (v : vec) (r : iterr) : iterr :=
  mkErr (er_rmax r) (er_dmax r) (er_drms r) (er_rconv r) (er_rdiv r) (er_dconv r) (er_ddiv r) (er_rmax_prev r) (er_dmax_prev r) (er_prev_rdiv r) (er_prev_ddiv r) (er_n_large r) (er_n_cont_r r) (er_n_cont_d r) v.

(** iteration_error.rs:78-104 `new` *)
Definition err_new (ndim : nat) : iterr :=
  mkErr 0 0 0 false false false false 0 0 false false 0 0 0 (repeat 0%R (ndim + 1)).

(** iteration_error.rs:107-122 `reset` *)
Definition err_reset (c : config) (u : vec) (l : R) (e : iterr) : res iterr :=
  ndim <- usub (length (er_scaling e)) 1 ;;
  sc <- for_range 0 ndim (fun i sc =>
          ui <- vget u i ;;
          vset sc i (c_tol_abs_delta c + c_tol_rel_delta c * Rabs ui)%R) (er_scaling e) ;;
  sc <- vset sc ndim (c_tol_abs_delta c + c_tol_rel_delta c * Rabs l)%R ;;
  Ok (mkErr (er_rmax e) (er_dmax e) (er_drms e) false false false false (er_rmax_prev e) (er_dmax_prev e)
            false false 0 0 0 sc).

(** iteration_error.rs:125-127 `converged` *)
Definition converged (e : iterr) : bool := er_rconv e || er_dconv e.

(** iteration_error.rs:132-162 `analyze_residual`; true means NaN or Inf *)
Definition analyze_residual (fin : R -> bool) (c : config) (it : nat) (gg : vec) (nn : R) (e : iterr) : iterr * bool :=
  let rmax := Rmax (vmax gg) (Rabs nn) in
  let e := set_er_rmax rmax e in
  if negb (fin rmax) then (e, true)
  else
    let e := set_er_rconv (Rltb rmax (c_tol_abs_residual c)) e in
    let e := set_er_prev_rdiv (er_rdiv e) e in
    let e := set_er_rdiv (if it =? 0 then false else Rltb (er_rmax_prev e) rmax) e in
    let e := if er_prev_rdiv e && er_rdiv e then set_er_n_cont_r (er_n_cont_r e + 1) e else e in
    (set_er_rmax_prev rmax e, false).

(** iteration_error.rs:182-187: RMS of the scaled correction *)
Definition rms_scaled (x sc : vec) : res R :=
  s <- for_range 0 (length x) (fun i s =>
         xi <- vget x i ;;
         si <- vget sc i ;;
         Ok (s + xi / si * (xi / si))%R) 0%R ;;
  Ok (sqrt (s / INR (length x))).

(** iteration_error.rs:169-210 `analyze_delta` *)
Definition analyze_delta (fin : R -> bool) (c : config) (it : nat) (x : vec) (e : iterr) : res (iterr * bool) :=
  if c_disable_rel_delta c then Ok (e, false)
  else
    let dmax := vmax x in
    let e := set_er_dmax dmax e in
    if negb (fin dmax) then Ok (e, true)
    else
      rms <- rms_scaled x (er_scaling e) ;;
      let e := set_er_drms rms e in
      let e := set_er_dconv (Rleb rms 1) e in
      let e := set_er_prev_ddiv (er_ddiv e) e in
      let e := set_er_ddiv (if it =? 0 then false else Rltb (er_dmax_prev e) dmax) e in
      let e := if er_prev_ddiv e && er_ddiv e then set_er_n_cont_d (er_n_cont_d e + 1) e else e in
      Ok (set_er_dmax_prev dmax e, false).

(** iteration_error.rs:213-237 `capture_failures` *)
Definition capture_failures (c : config) (it : nat) (e : iterr) : res (iterr * status) :=
  if Rltb (c_delta_max_allowed c) (er_dmax e) then Ok (set_er_n_large (er_n_large e + 1) e, LargeDelta)
  else if c_n_cont_r_max c <=? er_n_cont_r e then Ok (e, ContinuedResidualDivergence)
  else if c_n_cont_d_max c <=? er_n_cont_d e then Ok (e, ContinuedDeltaDivergence)
  else
    m <- usub (c_n_iteration_max c) 1 ;;
    Ok (e, if it =? m then ReachedMaxIterations else Success).

(* ------------------------------------------------------------------ *)
(** * stats.rs, workspace.rs, system.rs, output.rs *)

(** stats.rs:8-94 (counters and recorded residuals) *)
Record stats := mkStats {
  st_n_function : nat;
  st_n_jacobian : nat;
  st_n_factor : nat;
  st_n_lin_sol : nat;
  st_n_steps : nat;
  st_n_accepted : nat;
  st_n_rejected : nat;
  st_n_iteration_total : nat;
  st_h_accepted : R;
  st_tmp_residuals : list R;
  st_residuals : option (list (list R)) }.
Definition set_st_n_function (v : nat) (r : stats) : stats :=
  mkStats v (st_n_jacobian r) (st_n_factor r) (st_n_lin_sol r) (st_n_steps r) (st_n_accepted r) (st_n_rejected r) (st_n_iteration_total r) (st_h_accepted r) (st_tmp_residuals r) (st_residuals r).
Definition set_st_n_jacobian (v : nat) (r : stats) : stats :=
  mkStats (st_n_function r) v (st_n_factor r) (st_n_lin_sol r) (st_n_steps r) (st_n_accepted r) (st_n_rejected r) (st_n_iteration_total r) (st_h_accepted r) (st_tmp_residuals r) (st_residuals r).
Definition set_st_n_factor (v : nat) (r : stats) : stats :=
  mkStats (st_n_function r) (st_n_jacobian r) v (st_n_lin_sol r) (st_n_steps r) (st_n_accepted r) (st_n_rejected r) (st_n_iteration_total r) (st_h_accepted r) (st_tmp_residuals r) (st_residuals r).
Definition set_st_n_lin_sol (v : nat) (r : stats) : stats :=
  mkStats (st_n_function r) (st_n_jacobian r) (st_n_factor r) v (st_n_steps r) (st_n_accepted r) (st_n_rejected r) (st_n_iteration_total r) (st_h_accepted r) (st_tmp_residuals r) (st_residuals r).
Definition set_st_n_steps (v : nat) (r : stats) : stats :=
  mkStats (st_n_function r) (st_n_jacobian r) (st_n_factor r) (st_n_lin_sol r) v (st_n_accepted r) (st_n_rejected r) (st_n_iteration_total r) (st_h_accepted r) (st_tmp_residuals r) (st_residuals r).
Definition set_st_n_accepted (v : nat) (r : stats) : stats :=
  mkStats (st_n_function r) (st_n_jacobian r) (st_n_factor r) (st_n_lin_sol r) (st_n_steps r) v (st_n_rejected r) (st_n_iteration_total r) (st_h_accepted r) (st_tmp_residuals r) (st_residuals r).
Definition set_st_n_rejected (v : nat) (r : stats) : stats :=
  mkStats (st_n_function r) (st_n_jacobian r) (st_n_factor r) (st_n_lin_sol r) (st_n_steps r) (st_n_accepted r) v (st_n_iteration_total r) (st_h_accepted r) (st_tmp_residuals r) (st_residuals r).
Definition set_st_n_iteration_total (v : nat) (r : stats) : stats :=
  mkStats (st_n_function r) (st_n_jacobian r) (st_n_factor r) (st_n_lin_sol r) (st_n_steps r) (st_n_accepted r) (st_n_rejected r) v (st_h_accepted r) (st_tmp_residuals r) (st_residuals r).
Definition set_st_h_accepted (v : R) (r : stats) : stats :=
  mkStats (st_n_function r) (st_n_jacobian r) (st_n_factor r) (st_n_lin_sol r) (st_n_steps r) (st_n_accepted r) (st_n_rejected r) (st_n_iteration_total r) v (st_tmp_residuals r) (st_residuals r).
Definition set_st_tmp_residuals (v : list R) (r : stats) : stats :=
  mkStats (st_n_function r) (st_n_jacobian r) (st_n_factor r) (st_n_lin_sol r) (st_n_steps r) (st_n_accepted r) (st_n_rejected r) (st_n_iteration_total r) (st_h_accepted r) v (st_residuals r).
Definition set_st_residuals (v : option (list (list R))) (r : stats) : stats :=
  mkStats (st_n_function r) (st_n_jacobian r) (st_n_factor r) (st_n_lin_sol r) (st_n_steps r) (st_n_accepted r) (st_n_rejected r) (st_n_iteration_total r) (st_h_accepted r) (st_tmp_residuals r) v.

Definition stats_new : stats := mkStats 0 0 0 0 0 0 0 0 0 [] None.
(** stats.rs:192-209 `reset` *)
Definition stats_reset (s : stats) : stats := mkStats 0 0 0 0 0 0 0 0 0 (st_tmp_residuals s) None.
(** stats.rs:212-237 *)
Definition record_start (c : config) (s : stats) : stats :=
  if c_record_residuals c then
    set_st_tmp_residuals [] (match st_residuals s with None => set_st_residuals (Some []) s | Some _ => s end)
  else s.
Definition record_append (c : config) (r : R) (s : stats) : stats :=
  if c_record_residuals c then set_st_tmp_residuals (st_tmp_residuals s ++ [r]) s else s.
Definition record_stop (c : config) (conv : bool) (s : stats) : stats :=
  if c_record_residuals c then
    if conv then
      match st_residuals s with
      | Some rs => set_st_residuals (Some (rs ++ [st_tmp_residuals s])) s
      | None => s
      end
    else s
  else s.

(** workspace.rs:5-81 *)
Record work := mkWork {
  w_err : iterr;
  w_stats : stats;
  w_auto : bool;
  w_n_iteration : nat;
  w_n_cont_failure : nat;
  w_n_cont_rejection : nat;
  w_follows_failure : bool;
  w_follows_rejection : bool;
  w_target_reached : bool;
  w_h : R;
  w_u : vec;
  w_l : R;
  w_gg : vec;
  w_duds : vec;
  w_dlds : R;
  w_debug : option (list R * list R * list R) }.
Definition set_w_err (v : iterr) (r : work) : work :=
  mkWork v (w_stats r) (w_auto r) (w_n_iteration r) (w_n_cont_failure r) (w_n_cont_rejection r) (w_follows_failure r) (w_follows_rejection r) (w_target_reached r) (w_h r) (w_u r) (w_l r) (w_gg r) (w_duds r) (w_dlds r) (w_debug r).
Definition set_w_stats (v : stats) (r : work) : work :=
  mkWork (w_err r) v (w_auto r) (w_n_iteration r) (w_n_cont_failure r) (w_n_cont_rejection r) (w_follows_failure r) (w_follows_rejection r) (w_target_reached r) (w_h r) (w_u r) (w_l r) (w_gg r) (w_duds r) (w_dlds r) (w_debug r).
Definition set_w_auto (v : bool) (r : work) : work :=
  mkWork (w_err r) (w_stats r) v (w_n_iteration r) (w_n_cont_failure r) (w_n_cont_rejection r) (w_follows_failure r) (w_follows_rejection r) (w_target_reached r) (w_h r) (w_u r) (w_l r) (w_gg r) (w_duds r) (w_dlds r) (w_debug r).
Definition set_w_n_iteration (v : nat) (r : work) : work :=
  mkWork (w_err r) (w_stats r) (w_auto r) v (w_n_cont_failure r) (w_n_cont_rejection r) (w_follows_failure r) (w_follows_rejection r) (w_target_reached r) (w_h r) (w_u r) (w_l r) (w_gg r) (w_duds r) (w_dlds r) (w_debug r).
Definition set_w_n_cont_failure (v : nat) (r : work) : work :=
  mkWork (w_err r) (w_stats r) (w_auto r) (w_n_iteration r) v (w_n_cont_rejection r) (w_follows_failure r) (w_follows_rejection r) (w_target_reached r) (w_h r) (w_u r) (w_l r) (w_gg r) (w_duds r) (w_dlds r) (w_debug r).
Definition set_w_n_cont_rejection (v : nat) (r : work) : work :=
  mkWork (w_err r) (w_stats r) (w_auto r) (w_n_iteration r) (w_n_cont_failure r) v (w_follows_failure r) (w_follows_rejection r) (w_target_reached r) (w_h r) (w_u r) (w_l r) (w_gg r) (w_duds r) (w_dlds r) (w_debug r).
Definition set_w_follows_failure (v : bool) (r : work) : work :=
  mkWork (w_err r) (w_stats r) (w_auto r) (w_n_iteration r) (w_n_cont_failure r) (w_n_cont_rejection r) v (w_follows_rejection r) (w_target_reached r) (w_h r) (w_u r) (w_l r) (w_gg r) (w_duds r) (w_dlds r) (w_debug r).
Definition set_w_follows_rejection (v : bool) (r : work) : work :=
  mkWork (w_err r) (w_stats r) (w_auto r) (w_n_iteration r) (w_n_cont_failure r) (w_n_cont_rejection r) (w_follows_failure r) v (w_target_reached r) (w_h r) (w_u r) (w_l r) (w_gg r) (w_duds r) (w_dlds r) (w_debug r).
Definition set_w_target_reached (v : bool) (r : work) : work :=
  mkWork (w_err r) (w_stats r) (w_auto r) (w_n_iteration r) (w_n_cont_failure r) (w_n_cont_rejection r) (w_follows_failure r) (w_follows_rejection r) v (w_h r) (w_u r) (w_l r) (w_gg r) (w_duds r) (w_dlds r) (w_debug r).
Definition set_w_h (v : R) (r : work) : work :=
  mkWork (w_err r) (w_stats r) (w_auto r) (w_n_iteration r) (w_n_cont_failure r) (w_n_cont_rejection r) (w_follows_failure r) (w_follows_rejection r) (w_target_reached r) v (w_u r) (w_l r) (w_gg r) (w_duds r) (w_dlds r) (w_debug r).
Definition set_w_u (v : vec) (r : work) : work :=
  mkWork (w_err r) (w_stats r) (w_auto r) (w_n_iteration r) (w_n_cont_failure r) (w_n_cont_rejection r) (w_follows_failure r) (w_follows_rejection r) (w_target_reached r) (w_h r) v (w_l r) (w_gg r) (w_duds r) (w_dlds r) (w_debug r).
Definition set_w_l (v : R) (r : work) : work :=
  mkWork (w_err r) (w_stats r) (w_auto r) (w_n_iteration r) (w_n_cont_failure r) (w_n_cont_rejection r) (w_follows_failure r) (w_follows_rejection r) (w_target_reached r) (w_h r) (w_u r) v (w_gg r) (w_duds r) (w_dlds r) (w_debug r).
Definition set_w_gg (v : vec) (r : work) : work :=
  mkWork (w_err r) (w_stats r) (w_auto r) (w_n_iteration r) (w_n_cont_failure r) (w_n_cont_rejection r) (w_follows_failure r) (w_follows_rejection r) (w_target_reached r) (w_h r) (w_u r) (w_l r) v (w_duds r) (w_dlds r) (w_debug r).
Definition set_w_duds (v : vec) (r : work) : work :=
  mkWork (w_err r) (w_stats r) (w_auto r) (w_n_iteration r) (w_n_cont_failure r) (w_n_cont_rejection r) (w_follows_failure r) (w_follows_rejection r) (w_target_reached r) (w_h r) (w_u r) (w_l r) (w_gg r) v (w_dlds r) (w_debug r).
Definition set_w_dlds (v : R) (r : work) : work :=
  mkWork (w_err r) (w_stats r) (w_auto r) (w_n_iteration r) (w_n_cont_failure r) (w_n_cont_rejection r) (w_follows_failure r) (w_follows_rejection r) (w_target_reached r) (w_h r) (w_u r) (w_l r) (w_gg r) (w_duds r) v (w_debug r).
Definition set_w_debug (v : option (list R * list R * list R)) (r : work) : work :=
  mkWork (w_err r) (w_stats r) (w_auto r) (w_n_iteration r) (w_n_cont_failure r) (w_n_cont_rejection r) (w_follows_failure r) (w_follows_rejection r) (w_target_reached r) (w_h r) (w_u r) (w_l r) (w_gg r) (w_duds r) (w_dlds r) v.

(** workspace.rs:85-120 `new` *)
Definition work_new (c : config) (ndim : nat) : work :=
  mkWork (err_new ndim) stats_new false 0 0 0 false false false 0 (repeat 0%R ndim) 0 (repeat 0%R ndim)
         (match c_method c with Arclength => repeat 0%R ndim | Natural => [] end) 0 None.
(** workspace.rs:123-133 `reset_stats_and_flags` *)
Definition work_reset (auto : bool) (w : work) : work :=
  mkWork (w_err w) (stats_reset (w_stats w)) auto 0 0 0 false false false (w_h w) (w_u w) (w_l w) (w_gg w)
         (w_duds w) (w_dlds w) (w_debug w).

(** system.rs:67-109 `System`; a callback may change `args` and may fail *)
Record system (A : Type) := mkSys {
  y_ndim : nat;
  y_nnz : nat;
  y_sym : sym;
  y_gg : vec -> R -> vec -> A -> A * res vec;
  y_jac : coo R -> vec -> R -> vec -> A -> A * res (coo R * vec);
  y_backup : option (A -> A);
  y_restore : option (A -> A);
  y_prepare : option (A -> A);
  y_update : option (bool -> vec -> vec -> R -> R -> A -> A * res bool) }.
Arguments y_ndim {A}. Arguments y_nnz {A}. Arguments y_sym {A}. Arguments y_gg {A}. Arguments y_jac {A}.
Arguments y_backup {A}. Arguments y_restore {A}. Arguments y_prepare {A}. Arguments y_update {A}.
Arguments mkSys {A}.

(** the sparse direct solver of russell_sparse *)
Record linsolver (F : Type) := mkLS {
  ls_factorize : F -> coo R -> F * res unit;
  ls_solve : F -> vec -> res vec }.
Arguments ls_factorize {F}. Arguments ls_solve {F}. Arguments mkLS {F}.

(** output.rs:33 *)
Definition callback (A : Type) := stats -> vec -> R -> R -> A -> A * res bool.
(** output.rs:21-52 `Output`; the hash maps are association lists *)
Record output (A : Type) := mkOut {
  o_rec : bool;
  o_norm : option (norm * nat * nat);
  o_cb : option (callback A);
  o_norm_u : list R;
  o_u : list (nat * list R);
  o_l : list R;
  o_h : list R;
  o_duds : list (nat * list R);
  o_dlds : list R }.
Arguments mkOut {A}.
Arguments o_rec {A}.
Arguments o_norm {A}.
Arguments o_cb {A}.
Arguments o_norm_u {A}.
Arguments o_u {A}.
Arguments o_l {A}.
Arguments o_h {A}.
Arguments o_duds {A}.
Arguments o_dlds {A}.
Definition set_o_rec {A : Type} (v : bool) (r : (output A)) : (output A) :=
  mkOut v (o_norm r) (o_cb r) (o_norm_u r) (o_u r) (o_l r) (o_h r) (o_duds r) (o_dlds r).
Definition set_o_norm {A : Type} (v : option (norm * nat * nat)) (r : (output A)) : (output A) :=
  mkOut (o_rec r) v (o_cb r) (o_norm_u r) (o_u r) (o_l r) (o_h r) (o_duds r) (o_dlds r).
Definition set_o_cb {A : Type} (v : option (callback A)) (r : (output A)) : (output A) :=
  mkOut (o_rec r) (o_norm r) v (o_norm_u r) (o_u r) (o_l r) (o_h r) (o_duds r) (o_dlds r).
Definition set_o_norm_u {A : Type} (v : list R) (r : (output A)) : (output A) :=
  mkOut (o_rec r) (o_norm r) (o_cb r) v (o_u r) (o_l r) (o_h r) (o_duds r) (o_dlds r).
Definition set_o_u {A : Type} (v : list (nat * list R)) (r : (output A)) : (output A) :=
  mkOut (o_rec r) (o_norm r) (o_cb r) (o_norm_u r) v (o_l r) (o_h r) (o_duds r) (o_dlds r).
Definition set_o_l {A : Type} (v : list R) (r : (output A)) : (output A) :=
  mkOut (o_rec r) (o_norm r) (o_cb r) (o_norm_u r) (o_u r) v (o_h r) (o_duds r) (o_dlds r).
Definition set_o_h {A : Type} (v : list R) (r : (output A)) : (output A) :=
  mkOut (o_rec r) (o_norm r) (o_cb r) (o_norm_u r) (o_u r) (o_l r) v (o_duds r) (o_dlds r).
Definition set_o_duds {A : Type} (v : list (nat * list R)) (r : (output A)) : (output A) :=
  mkOut (o_rec r) (o_norm r) (o_cb r) (o_norm_u r) (o_u r) (o_l r) (o_h r) v (o_dlds r).
Definition set_o_dlds {A : Type} (v : list R) (r : (output A)) : (output A) :=
  mkOut (o_rec r) (o_norm r) (o_cb r) (o_norm_u r) (o_u r) (o_l r) (o_h r) (o_duds r) v.

(** output.rs:56-68 `new` *)
Definition output_new (A : Type) : output A := mkOut false None None [] [] [] [] [] [].
(** output.rs:81-87 `set_callback` *)
Definition set_callback {A} (cb : callback A) (o : output A) : output A := set_o_cb (Some cb) o.
(** HashMap::insert(m, Vec::new()) *)
Definition hm_insert (l : list (nat * list R)) (m : nat) : list (nat * list R) :=
  filter (fun p => negb (fst p =? m)) l ++ [(m, [])].
(** output.rs:98-107 `set_recording` *)
Definition set_recording {A} (b : bool) (us ds : list nat) (o : output A) : output A :=
  let o := set_o_rec b o in
  let o := set_o_u (fold_left hm_insert us (o_u o)) o in
  set_o_duds (fold_left hm_insert ds (o_duds o)) o.
(** output.rs:129-133 `set_record_norm_u` *)
Definition set_record_norm_u {A} (b : bool) (k : norm) (start stop : nat) (o : output A) : output A :=
  set_o_norm (Some (k, start, stop)) (set_o_rec b o).
(** HashMap::get *)
Definition hm_get (l : list (nat * list R)) (m : nat) : option (list R) :=
  match find (fun p => fst p =? m) l with Some p => Some (snd p) | None => None end.
(** output.rs:156-158, 179-181 `get_u_values`, `get_duds_values` *)
Definition get_u_values {A} (o : output A) (m : nat) : res (list R) :=
  match hm_get (o_u o) m with Some v => Ok v | None => Panic end.
Definition get_duds_values {A} (o : output A) (m : nat) : res (list R) :=
  match hm_get (o_duds o) m with Some v => Ok v | None => Panic end.

(** output.rs:206-208, 213-215: push component m of [v] on column m *)
Fixpoint push_all (cols : list (nat * list R)) (v : vec) : res (list (nat * list R)) :=
  match cols with
  | [] => Ok []
  | (m, col) :: t =>
      x <- vget v m ;;
      t' <- push_all t v ;;
      Ok ((m, col ++ [x]) :: t')
  end.
(** output.rs:201-218: one row *)
Definition record_row {A} (w : work) (u : vec) (l : R) (o : output A) : res (output A) :=
  o <- match o_norm o with
       | Some (k, start, stop) =>
           x <- vnorm_chunk u k start stop ;;
           Ok (set_o_norm_u (o_norm_u o ++ [x]) o)
       | None => Ok o
       end ;;
  cu <- push_all (o_u o) u ;;
  let o := set_o_u cu o in
  let o := set_o_l (o_l o ++ [l]) o in
  let o := set_o_h (o_h o ++ [w_h w]) o in
  if length (w_duds w) =? length u then
    cd <- push_all (o_duds o) (w_duds w) ;;
    let o := set_o_duds cd o in
    Ok (set_o_dlds (o_dlds o ++ [w_dlds w]) o)
  else Ok o.
(** output.rs:191-222 `execute`; what a panic leaves half-written is not modelled *)
Definition execute {A} (w : work) (u : vec) (l : R) (o : output A) (a : A) : output A * A * res bool :=
  let '(a, r) := match o_cb o with
                 | Some cb => cb (w_stats w) u l (w_h w) a
                 | None => (a, Ok false)
                 end in
  match r with
  | Ok true => (o, a, Ok true)
  | Ok false =>
      if o_rec o then
        match record_row w u l o with
        | Ok o' => (o', a, Ok false)
        | Err e => (o, a, Err e)
        | Panic => (o, a, Panic)
        end
      else (o, a, Ok false)
  | Err e => (o, a, Err e)
  | Panic => (o, a, Panic)
  end.

(* ------------------------------------------------------------------ *)
(** * The state of a solver, and what both solvers share *)

Record env (S : Type) (A : Type) := mkEnv {
  e_s : S;
  e_w : work;
  e_a : A }.
Arguments mkEnv {S} {A}.
Arguments e_s {S} {A}.
Arguments e_w {S} {A}.
Arguments e_a {S} {A}.
Definition set_e_s {S A : Type} (v : S) (r : (env S A)) : (env S A) :=
  mkEnv v (e_w r) (e_a r).
Definition set_e_w {S A : Type} (v : work) (r : (env S A)) : (env S A) :=
  mkEnv (e_s r) v (e_a r).
Definition set_e_a {S A : Type} (v : A) (r : (env S A)) : (env S A) :=
  mkEnv (e_s r) (e_w r) v.

(** solver_trait.rs:6-31 `SolverTrait`; [op_accept] returns the new (u, lambda) and rdiff *)
Record solver_ops (S A : Type) := mkOps {
  op_initialize : R -> vec -> R -> bool -> M (env S A) unit;
  op_step : vec -> R -> stop -> M (env S A) status;
  op_accept : vec -> R -> M (env S A) (vec * R * R);
  op_reject : M (env S A) unit }.
Arguments op_initialize {S A}. Arguments op_step {S A}. Arguments op_accept {S A}. Arguments op_reject {S A}.
Arguments mkOps {S A}.

Section Shared.
Variables (S A : Type).
Variable fin : R -> bool.
Variable cfg : config.
Variable sys : system A.

Definition getw : M (env S A) work := fun e => (e, Ok (e_w e)).
Definition gets : M (env S A) S := fun e => (e, Ok (e_s e)).
Definition modw (f : work -> work) : M (env S A) unit := modify (fun e => set_e_w (f (e_w e)) e).
Definition mods (f : S -> S) : M (env S A) unit := modify (fun e => set_e_s (f (e_s e)) e).
Definition modst (f : stats -> stats) : M (env S A) unit := modw (fun w => set_w_stats (f (w_stats w)) w).

(** `f(args)` if the callback is set *)
Definition call_args (f : option (A -> A)) : M (env S A) unit :=
  match f with
  | Some g => modify (fun e => set_e_a (g (e_a e)) e)
  | None => ret tt
  end.
(** `(self.system.calc_gg)(&mut work.gg, work.l, &work.u, args)?` *)
Definition call_gg : M (env S A) unit :=
  modst (fun s => set_st_n_function (st_n_function s + 1) s) ;;;
  (fun e =>
     let w := e_w e in
     let '(a, r) := y_gg sys (w_gg w) (w_l w) (w_u w) (e_a e) in
     let e := set_e_a a e in
     match r with
     | Ok g => (set_e_w (set_w_gg g w) e, Ok tt)
     | Err m => (e, Err m)
     | Panic => (e, Panic)
     end).
(** `Status::from_sup(f(do_backup, &u, &work.u, l, work.l, args))` if the callback is set *)
Definition call_update (do_backup : bool) (u : vec) (l : R) : M (env S A) status :=
  match y_update sys with
  | Some f => fun e =>
      let '(a, r) := f do_backup u (w_u (e_w e)) l (w_l (e_w e)) (e_a e) in
      (set_e_a a e, from_sup r)
  | None => ret Success
  end.
(** work.err.analyze_residual(work.n_iteration, &work.gg, nn) *)
Definition an_residual (nn : R) : M (env S A) bool := fun e =>
  let w := e_w e in
  let '(er, bad) := analyze_residual fin cfg (w_n_iteration w) (w_gg w) nn (w_err w) in
  (set_e_w (set_w_err er w) e, Ok bad).
(** work.err.analyze_delta(work.n_iteration, x) *)
Definition an_delta (x : vec) : M (env S A) bool := fun e =>
  let w := e_w e in
  match analyze_delta fin cfg (w_n_iteration w) x (w_err w) with
  | Ok (er, bad) => (set_e_w (set_w_err er w) e, Ok bad)
  | Err m => (e, Err m)
  | Panic => (e, Panic)
  end.
(** work.err.capture_failures(work.n_iteration) *)
Definition an_failures : M (env S A) status := fun e =>
  let w := e_w e in
  match capture_failures cfg (w_n_iteration w) (w_err w) with
  | Ok (er, st) => (set_e_w (set_w_err er w) e, Ok st)
  | Err m => (e, Err m)
  | Panic => (e, Panic)
  end.
Definition is_conv : M (env S A) bool := w <~ getw ;; ret (converged (w_err w)).

(** solver_natural.rs:299-309, solver_arclength.rs:745-755 *)
Definition push_debug : M (env S A) unit :=
  if c_debug_predictor cfg then
    w <~ getw ;;
    u0 <~ lift (vget (w_u w) 0) ;;
    let '(a, b, c) := match w_debug w with Some t => t | None => ([], [], []) end in
    u1 <~ (if 1 <? length (w_u w) then x <~ lift (vget (w_u w) 1) ;; ret [x] else ret []) ;;
    modw (set_w_debug (Some (a ++ [w_l w], b ++ [u0], c ++ u1)))
  else ret tt.

(** solver_natural.rs:370-387, solver_arclength.rs:877-894 `reject` *)
Definition reject : M (env S A) unit :=
  w <~ getw ;;
  (if w_auto w then call_args (y_restore sys) else ret tt) ;;;
  if c_debug_predictor cfg then
    match w_debug w with
    | Some (a, b, c) =>
        modw (set_w_debug (Some (removelast a, removelast b, if 1 <? length (w_u w) then removelast c else c)))
    | None => lift Panic
    end
  else ret tt.

(** solver_natural.rs:243-259, solver_arclength.rs:683-699: start of `step` *)
Definition step_begin (u : vec) (l : R) : M (env S A) unit :=
  w <~ getw ;;
  (if w_auto w then call_args (y_backup sys) else ret tt) ;;;
  call_args (y_prepare sys) ;;;
  w <~ getw ;;
  er <~ lift (err_reset cfg u l (w_err w)) ;;
  modw (set_w_err er) ;;;
  modst (record_start cfg).

(** solver_natural.rs:311-342, solver_arclength.rs:757-789: the iterations, given `iterate` *)
Definition iterations (iterate : M (env S A) status) : M (env S A) status :=
  modw (set_w_n_iteration 0) ;;;
  st <~ mloop (c_n_iteration_max cfg) 0 (fun _ _ =>
          modst (fun s => set_st_n_iteration_total (st_n_iteration_total s + 1) s) ;;;
          st <~ iterate ;;
          if failure st then ret (true, st)
          else
            w <~ getw ;;
            modst (record_append cfg (er_rmax (w_err w))) ;;;
            if converged (w_err w) then ret (true, st)
            else
              modw (fun w => set_w_n_iteration (w_n_iteration w + 1) w) ;;;
              ret (false, st)) Success ;;
  w <~ getw ;;
  modst (record_stop cfg (converged (w_err w))) ;;;
  ret st.

(** tail of both `iterate`: the check of the correction x, the failures, the update [upd] of the
    state, and the secondary update (solver_natural.rs:136-165, solver_arclength.rs:607-639) *)
Definition after_solve (x : vec) (upd : M (env S A) unit) (u : vec) (l : R) : M (env S A) status :=
  bad <~ an_delta x ;;
  if bad then ret NanOrInfDelta
  else
    c <~ is_conv ;;
    if c then ret Success
    else
      st <~ an_failures ;;
      if failure st then ret st
      else
        upd ;;;
        st <~ call_update false u l ;;
        if failure st then ret st else ret Success.
End Shared.
Arguments getw {S A}. Arguments gets {S A}. Arguments modw {S A}. Arguments mods {S A}. Arguments modst {S A}.
Arguments call_args {S A}. Arguments call_gg {S A}. Arguments call_update {S A}. Arguments an_residual {S A}.
Arguments an_delta {S A}. Arguments an_failures {S A}. Arguments is_conv {S A}. Arguments push_debug {S A}.
Arguments reject {S A}. Arguments step_begin {S A}. Arguments iterations {S A}. Arguments after_solve {S A}.

(* ------------------------------------------------------------------ *)
(** * solver_natural.rs *)

(** solver_natural.rs:15-45 *)
Record natst (F : Type) := mkNat {
  n_sign0 : R;
  n_iter_jac : bool;
  n_ggl : vec;
  n_ggu : coo R;
  n_mdu : vec;
  n_ls : F;
  n_u_prev : vec }.
Arguments mkNat {F}.
Arguments n_sign0 {F}.
Arguments n_iter_jac {F}.
Arguments n_ggl {F}.
Arguments n_ggu {F}.
Arguments n_mdu {F}.
Arguments n_ls {F}.
Arguments n_u_prev {F}.
Definition set_n_sign0 {F : Type} (v : R) (r : (natst F)) : (natst F) :=
  mkNat v (n_iter_jac r) (n_ggl r) (n_ggu r) (n_mdu r) (n_ls r) (n_u_prev r).
Definition set_n_iter_jac {F : Type} (v : bool) (r : (natst F)) : (natst F) :=
  mkNat (n_sign0 r) v (n_ggl r) (n_ggu r) (n_mdu r) (n_ls r) (n_u_prev r).
Definition set_n_ggl {F : Type} (v : vec) (r : (natst F)) : (natst F) :=
  mkNat (n_sign0 r) (n_iter_jac r) v (n_ggu r) (n_mdu r) (n_ls r) (n_u_prev r).
Definition set_n_ggu {F : Type} (v : coo R) (r : (natst F)) : (natst F) :=
  mkNat (n_sign0 r) (n_iter_jac r) (n_ggl r) v (n_mdu r) (n_ls r) (n_u_prev r).
Definition set_n_mdu {F : Type} (v : vec) (r : (natst F)) : (natst F) :=
  mkNat (n_sign0 r) (n_iter_jac r) (n_ggl r) (n_ggu r) v (n_ls r) (n_u_prev r).
Definition set_n_ls {F : Type} (v : F) (r : (natst F)) : (natst F) :=
  mkNat (n_sign0 r) (n_iter_jac r) (n_ggl r) (n_ggu r) (n_mdu r) v (n_u_prev r).
Definition set_n_u_prev {F : Type} (v : vec) (r : (natst F)) : (natst F) :=
  mkNat (n_sign0 r) (n_iter_jac r) (n_ggl r) (n_ggu r) (n_mdu r) (n_ls r) v.

(** solver_natural.rs:63-79 `new` *)
Definition nat_new {F A} (sys : system A) (f0 : F) : res (natst F) :=
  ggu <- unwrap (coo_new R 0%R (y_ndim sys) (y_ndim sys) (y_nnz sys) (y_sym sys)) ;;
  Ok (mkNat 1 false (repeat 0%R (y_ndim sys)) ggu (repeat 0%R (y_ndim sys)) f0 (repeat 0%R (y_ndim sys))).

Section NaturalSolver.
Variables (F A : Type).
Variable fin : R -> bool.
Variable cfg : config.
Variable sys : system A.
Variable lin : linsolver F.
Let E := env (natst F) A.

(** the matrix is written and the run ends: solver_natural.rs:93-101 *)
Definition write_matrix (m : coo R) : M E unit :=
  w <~ getw ;;
  match c_write_matrix cfg with
  | Some n =>
      if st_n_accepted (w_stats w) <? n then
        match csc_from_coo R 0%R Rplus m with
        | Ok _ => lift (Err "MATRIX FILES GENERATED in /tmp/russell_nonlin/")
        | _ => lift Panic
        end
      else ret tt
  | None => ret tt
  end.

(** solver_natural.rs:84-109 `assemble_and_factorize_jac` *)
Definition nat_jac : M E unit :=
  modst (fun s => set_st_n_jacobian (st_n_jacobian s + 1) s) ;;;
  (fun e =>
     let s := e_s e in
     let w := e_w e in
     let '(a, r) := y_jac sys (coo_reset (n_ggu s)) (n_ggl s) (w_l w) (w_u w) (e_a e) in
     let e := set_e_a a e in
     match r with
     | Ok (m, g) => (set_e_s (set_n_ggu m (set_n_ggl g s)) e, Ok tt)
     | Err x => (e, Err x)
     | Panic => (e, Panic)
     end) ;;;
  s <~ gets ;;
  write_matrix (n_ggu s) ;;;
  modst (fun s => set_st_n_factor (st_n_factor s + 1) s) ;;;
  (fun e =>
     let '(f, r) := ls_factorize lin (n_ls (e_s e)) (n_ggu (e_s e)) in
     (set_e_s (set_n_ls f (e_s e)) e, r)).

(** self.ls.actual.solve(&mut self.mdu, rhs, false)? *)
Definition nat_solve (rhs : vec) : M E vec :=
  s <~ gets ;;
  x <~ lift (ls_solve lin (n_ls s) rhs) ;;
  mods (set_n_mdu x) ;;;
  ret x.

(** solver_natural.rs:112-166 `iterate` *)
Definition nat_iterate (u : vec) (l : R) : M E status :=
  call_gg sys ;;;
  bad <~ an_residual fin cfg 0 ;;
  if bad then ret NanOrInfResidual
  else
    c <~ is_conv ;;
    if c then ret Success
    else
      nat_jac ;;;
      modst (fun s => set_st_n_lin_sol (st_n_lin_sol s + 1) s) ;;;
      w <~ getw ;;
      mdu <~ nat_solve (w_gg w) ;;
      after_solve fin cfg sys mdu
        (w <~ getw ;;
         s <~ gets ;;
         v <~ lift (vupdate (w_u w) (-1) (n_mdu s)) ;;
         modw (set_w_u v)) u l.

(** solver_natural.rs:192-210 `calculate_rerr` *)
Definition nat_rerr (u : vec) : M E R :=
  w <~ getw ;;
  s <~ gets ;;
  if 1 <? st_n_accepted (w_stats w) then
    m <~ lift (for_range 0 (y_ndim sys) (fun i m =>
           wi <- vget (w_u w) i ;;
           ui <- vget u i ;;
           let den := Rabs (wi - ui) in
           if Rltb H_MIN den then
             pi <- vget (n_u_prev s) i ;;
             let ratio := (Rabs (wi - 2 * ui + pi) / den)%R in
             Ok (if Rltb m ratio then ratio else m)
           else Ok m) 0%R) ;;
    ret (m / c_tg_tol cfg)%R
  else ret 0%R.

(** solver_natural.rs:218-239 `initialize`; [dir] is true for IniDir::Pos *)
Definition nat_initialize (ddl_ini : R) (_ : vec) (_ : R) (dir : bool) : M E unit :=
  mods (set_n_iter_jac false) ;;;
  mods (set_n_sign0 (if dir then 1 else -1)%R) ;;;
  modw (set_w_h ddl_ini).

(** solver_natural.rs:261-270: predicted lambda *)
Definition nat_lambda (l : R) (st : stop) : M E unit :=
  s <~ gets ;;
  modw (fun w => set_w_l (l + n_sign0 s * w_h w)%R w) ;;;
  match stop_lambda st with
  | Some (l1, is_min) =>
      w <~ getw ;;
      if (Rleb (w_l w) l1 && is_min) || (Rleb l1 (w_l w) && negb is_min) then
        modw (set_w_h ((l1 - l) * n_sign0 s)%R) ;;;
        modw (fun w => set_w_l (l + n_sign0 s * w_h w)%R w)
      else ret tt
  | None => ret tt
  end.

(** solver_natural.rs:272-287: predicted u *)
Definition nat_predict (u : vec) (l : R) : M E unit :=
  if c_euler_predictor cfg then
    s <~ gets ;;
    (if n_iter_jac s then ret tt
     else
       w <~ getw ;;
       v <~ lift (vcopy (w_u w) u) ;;
       modw (set_w_u v) ;;;
       nat_jac ;;;
       mods (set_n_iter_jac true)) ;;;
    w <~ getw ;;
    s <~ gets ;;
    x <~ nat_solve (n_ggl s) ;;
    v <~ lift (vadd (w_u w) 1 u (- (w_l w - l)) x) ;;
    modw (set_w_u v)
  else
    w <~ getw ;;
    v <~ lift (vcopy (w_u w) u) ;;
    modw (set_w_u v).

(** solver_natural.rs:242-346 `step` *)
Definition nat_step (u : vec) (l : R) (st : stop) : M E status :=
  step_begin cfg sys u l ;;;
  nat_lambda l st ;;;
  nat_predict u l ;;;
  s <~ call_update sys true u l ;;
  if failure s then ret s
  else
    push_debug cfg ;;;
    iterations cfg (nat_iterate u l).

(** solver_natural.rs:351-364 `accept` *)
Definition nat_accept (u : vec) (l : R) : M E (vec * R * R) :=
  rdiff <~ nat_rerr u ;;
  s <~ gets ;;
  p <~ lift (vcopy (n_u_prev s) u) ;;
  mods (set_n_u_prev p) ;;;
  w <~ getw ;;
  v <~ lift (vcopy u (w_u w)) ;;
  ret (v, w_l w, rdiff).

Definition natural_ops : solver_ops (natst F) A :=
  mkOps nat_initialize nat_step nat_accept (reject cfg sys).
End NaturalSolver.

(* ------------------------------------------------------------------ *)
(** * solver_arclength.rs *)

(** solver_arclength.rs:148-206 *)
Record arcst (F : Type) := mkArc {
  a_theta : R;
  a_iter_jac : bool;
  a_ggl : vec;
  a_duds_prev : vec;
  a_dlds_prev : R;
  a_ls : F;
  a_x : vec;
  a_ggu : coo R;
  a_mdu : vec;
  a_u_aux : vec;
  a_aa : coo R;
  a_b : vec }.
Arguments mkArc {F}.
Arguments a_theta {F}.
Arguments a_iter_jac {F}.
Arguments a_ggl {F}.
Arguments a_duds_prev {F}.
Arguments a_dlds_prev {F}.
Arguments a_ls {F}.
Arguments a_x {F}.
Arguments a_ggu {F}.
Arguments a_mdu {F}.
Arguments a_u_aux {F}.
Arguments a_aa {F}.
Arguments a_b {F}.
Definition set_a_theta {F : Type} (v : R) (r : (arcst F)) : (arcst F) :=
  mkArc v (a_iter_jac r) (a_ggl r) (a_duds_prev r) (a_dlds_prev r) (a_ls r) (a_x r) (a_ggu r) (a_mdu r) (a_u_aux r) (a_aa r) (a_b r).
Definition set_a_iter_jac {F : Type} (v : bool) (r : (arcst F)) : (arcst F) :=
  mkArc (a_theta r) v (a_ggl r) (a_duds_prev r) (a_dlds_prev r) (a_ls r) (a_x r) (a_ggu r) (a_mdu r) (a_u_aux r) (a_aa r) (a_b r).
Definition set_a_ggl {F : Type} (v : vec) (r : (arcst F)) : (arcst F) :=
  mkArc (a_theta r) (a_iter_jac r) v (a_duds_prev r) (a_dlds_prev r) (a_ls r) (a_x r) (a_ggu r) (a_mdu r) (a_u_aux r) (a_aa r) (a_b r).
Definition set_a_duds_prev {F : Type} (v : vec) (r : (arcst F)) : (arcst F) :=
  mkArc (a_theta r) (a_iter_jac r) (a_ggl r) v (a_dlds_prev r) (a_ls r) (a_x r) (a_ggu r) (a_mdu r) (a_u_aux r) (a_aa r) (a_b r).
Definition set_a_dlds_prev {F : Type} (v : R) (r : (arcst F)) : (arcst F) :=
  mkArc (a_theta r) (a_iter_jac r) (a_ggl r) (a_duds_prev r) v (a_ls r) (a_x r) (a_ggu r) (a_mdu r) (a_u_aux r) (a_aa r) (a_b r).
Definition set_a_ls {F : Type} (v : F) (r : (arcst F)) : (arcst F) :=
  mkArc (a_theta r) (a_iter_jac r) (a_ggl r) (a_duds_prev r) (a_dlds_prev r) v (a_x r) (a_ggu r) (a_mdu r) (a_u_aux r) (a_aa r) (a_b r).
Definition set_a_x {F : Type} (v : vec) (r : (arcst F)) : (arcst F) :=
  mkArc (a_theta r) (a_iter_jac r) (a_ggl r) (a_duds_prev r) (a_dlds_prev r) (a_ls r) v (a_ggu r) (a_mdu r) (a_u_aux r) (a_aa r) (a_b r).
Definition set_a_ggu {F : Type} (v : coo R) (r : (arcst F)) : (arcst F) :=
  mkArc (a_theta r) (a_iter_jac r) (a_ggl r) (a_duds_prev r) (a_dlds_prev r) (a_ls r) (a_x r) v (a_mdu r) (a_u_aux r) (a_aa r) (a_b r).
Definition set_a_mdu {F : Type} (v : vec) (r : (arcst F)) : (arcst F) :=
  mkArc (a_theta r) (a_iter_jac r) (a_ggl r) (a_duds_prev r) (a_dlds_prev r) (a_ls r) (a_x r) (a_ggu r) v (a_u_aux r) (a_aa r) (a_b r).
Definition set_a_u_aux {F : Type} (v : vec) (r : (arcst F)) : (arcst F) :=
  mkArc (a_theta r) (a_iter_jac r) (a_ggl r) (a_duds_prev r) (a_dlds_prev r) (a_ls r) (a_x r) (a_ggu r) (a_mdu r) v (a_aa r) (a_b r).
Definition set_a_aa {F : Type} (v : coo R) (r : (arcst F)) : (arcst F) :=
  mkArc (a_theta r) (a_iter_jac r) (a_ggl r) (a_duds_prev r) (a_dlds_prev r) (a_ls r) (a_x r) (a_ggu r) (a_mdu r) (a_u_aux r) v (a_b r).
Definition set_a_b {F : Type} (v : vec) (r : (arcst F)) : (arcst F) :=
  mkArc (a_theta r) (a_iter_jac r) (a_ggl r) (a_duds_prev r) (a_dlds_prev r) (a_ls r) (a_x r) (a_ggu r) (a_mdu r) (a_u_aux r) (a_aa r) v.

(** solver_arclength.rs:227-275 `new` *)
Definition arc_new {F A} (cfg : config) (sys : system A) (f0 : F) : res (arcst F) :=
  let n := y_ndim sys in
  if negb (c_bordering cfg) && negb (sym_eqb (y_sym sys) SymNo) then
    Err "The Arclength method requires `sym_ggu = Sym::No` when not using bordering"
  else if c_bordering cfg then
    ggu <- unwrap (coo_new R 0%R n n (y_nnz sys) (y_sym sys)) ;;
    aa <- unwrap (coo_new R 0%R 1 1 1 SymNo) ;;
    Ok (mkArc 1 false (repeat 0%R n) (repeat 0%R n) 0 f0 (repeat 0%R (n + 1)) ggu (repeat 0%R n) (repeat 0%R n) aa [])
  else
    ggu <- unwrap (coo_new R 0%R 1 1 1 SymNo) ;;
    aa <- unwrap (coo_new R 0%R (n + 1) (n + 1) (y_nnz sys + 2 * n + 1) SymNo) ;;
    Ok (mkArc 1 false (repeat 0%R n) (repeat 0%R n) 0 f0 (repeat 0%R (n + 1)) ggu [] [] aa (repeat 0%R (n + 1))).

Section ArclengthSolver.
Variables (F A : Type).
Variable fin : R -> bool.
Variable cfg : config.
Variable sys : system A.
Variable lin : linsolver F.
Let E := env (arcst F) A.

(** solver_arclength.rs:291-300, 372-381: in both paths the matrix written is `self.ggu` *)
Definition arc_write_matrix : M E unit :=
  w <~ getw ;;
  s <~ gets ;;
  match c_write_matrix cfg with
  | Some n =>
      if st_n_accepted (w_stats w) <? n then
        match csc_from_coo R 0%R Rplus (a_ggu s) with
        | Ok _ => lift (Err "MATRIX FILES GENERATED in /tmp/russell_nonlin/")
        | _ => lift Panic
        end
      else ret tt
  | None => ret tt
  end.

(** solver_arclength.rs:280-308 `assemble_and_factorize_jac` *)
Definition arc_jac : M E unit :=
  lift (assert_ (c_bordering cfg)) ;;;
  modst (fun s => set_st_n_jacobian (st_n_jacobian s + 1) s) ;;;
  (fun e =>
     let s := e_s e in
     let w := e_w e in
     let '(a, r) := y_jac sys (coo_reset (a_ggu s)) (a_ggl s) (w_l w) (w_u w) (e_a e) in
     let e := set_e_a a e in
     match r with
     | Ok (m, g) => (set_e_s (set_a_ggu m (set_a_ggl g s)) e, Ok tt)
     | Err x => (e, Err x)
     | Panic => (e, Panic)
     end) ;;;
  arc_write_matrix ;;;
  modst (fun s => set_st_n_factor (st_n_factor s + 1) s) ;;;
  (fun e =>
     let '(f, r) := ls_factorize lin (a_ls (e_s e)) (a_ggu (e_s e)) in
     (set_e_s (set_a_ls f (e_s e)) e, r)).

(** aa.put(i, j, x).unwrap() *)
Definition put_unwrap (m : coo R) (i j : nat) (x : R) : res (coo R) :=
  match coo_put m i j x with (m', Ok _) => Ok m' | _ => Panic end.

(** solver_arclength.rs:354-369: the last row and column of A *)
Definition border (ini : bool) (ggl duds : vec) (theta dlds : R) (m : coo R) : res (coo R) :=
  let n := y_ndim sys in
  if ini then
    m <- for_range 0 n (fun i m =>
           m <- put_unwrap m i n 0%R ;;
           put_unwrap m n i 0%R) m ;;
    put_unwrap m n n 1%R
  else
    m <- for_range 0 n (fun i m =>
           g <- vget ggl i ;;
           m <- put_unwrap m i n g ;;
           d <- vget duds i ;;
           put_unwrap m n i (theta * d)%R) m ;;
    put_unwrap m n n ((2 - theta) * dlds)%R.

(** solver_arclength.rs:335-389 `assemble_and_factorize_aa` *)
Definition arc_aa (ini : bool) : M E unit :=
  lift (assert_ (negb (c_bordering cfg))) ;;;
  modst (fun s => set_st_n_jacobian (st_n_jacobian s + 1) s) ;;;
  (fun e =>
     let s := e_s e in
     let w := e_w e in
     let '(a, r) := y_jac sys (coo_reset (a_aa s)) (a_ggl s) (w_l w) (w_u w) (e_a e) in
     let e := set_e_a a e in
     match r with
     | Ok (m, g) => (set_e_s (set_a_aa m (set_a_ggl g s)) e, Ok tt)
     | Err x => (e, Err x)
     | Panic => (e, Panic)
     end) ;;;
  s <~ gets ;;
  w <~ getw ;;
  m <~ lift (border ini (a_ggl s) (w_duds w) (a_theta s) (w_dlds w) (a_aa s)) ;;
  mods (set_a_aa m) ;;;
  arc_write_matrix ;;;
  modst (fun s => set_st_n_factor (st_n_factor s + 1) s) ;;;
  (fun e =>
     let '(f, r) := ls_factorize lin (a_ls (e_s e)) (a_aa (e_s e)) in
     (set_e_s (set_a_ls f (e_s e)) e, r)).

(** self.ls.actual.solve(x, rhs, false)? with its counter *)
Definition arc_solve (rhs : vec) : M E vec :=
  modst (fun s => set_st_n_lin_sol (st_n_lin_sol s + 1) s) ;;;
  s <~ gets ;;
  lift (ls_solve lin (a_ls s) rhs).

(** solver_arclength.rs:402-457 `calc_initial_tangent` *)
Definition arc_initial_tangent (sign0 : R) : M E unit :=
  let n := y_ndim sys in
  (if c_bordering cfg then
     arc_jac ;;;
     s <~ gets ;;
     mdu <~ arc_solve (a_ggl s) ;;
     mods (set_a_mdu mdu) ;;;
     let dlds := (sign0 / sqrt (1 + inner mdu mdu))%R in
     w <~ getw ;;
     d <~ lift (vcopy_scaled (w_duds w) (- dlds) mdu) ;;
     modw (fun w => set_w_duds d (set_w_dlds dlds w))
   else
     arc_aa true ;;;
     s <~ gets ;;
     b <~ lift (for_range 0 n (fun i b => g <- vget (a_ggl s) i ;; vset b i (- g)%R) (a_b s)) ;;
     b <~ lift (vset b n 0%R) ;;
     mods (set_a_b b) ;;;
     x <~ arc_solve b ;;
     mods (set_a_x x) ;;;
     xn <~ lift (vget x n) ;;
     lift (assert_ (Reqb xn 0)) ;;;
     let dlds := (sign0 / sqrt (1 + inner x x))%R in
     w <~ getw ;;
     d <~ lift (for_range 0 n (fun i d => xi <- vget x i ;; vset d i (dlds * xi)%R) (w_duds w)) ;;
     modw (fun w => set_w_duds d (set_w_dlds dlds w))) ;;;
  w <~ getw ;;
  if Rltb (Rabs (w_dlds w)) H_MIN then lift (Err "Initial dl/ds is zero")
  else if Rltb (vmax (w_duds w)) H_MIN then lift (Err "Initial du/ds vector is zero")
  else ret tt.

(** solver_arclength.rs:460-524 `update_tangent_vector` *)
Definition arc_update_tangent : M E unit :=
  let n := y_ndim sys in
  w <~ getw ;;
  s <~ gets ;;
  p <~ lift (vcopy (a_duds_prev s) (w_duds w)) ;;
  mods (fun s => set_a_dlds_prev (w_dlds w) (set_a_duds_prev p s)) ;;;
  if c_bordering cfg then
    (if a_iter_jac s then ret tt else arc_jac) ;;;
    s <~ gets ;;
    mdu <~ arc_solve (a_ggl s) ;;
    mods (set_a_mdu mdu) ;;;
    let dlds := (1 / sqrt (1 + inner mdu mdu))%R in
    d <~ lift (vcopy_scaled (w_duds w) (- dlds) mdu) ;;
    modw (fun w => set_w_duds d (set_w_dlds dlds w)) ;;;
    let dot := (inner d p + dlds * w_dlds w)%R in
    if Rltb dot 0 then
      d' <~ lift (for_range 0 n (fun i d => di <- vget d i ;; vset d i (- di)%R) d) ;;
      modw (fun w => set_w_duds d' (set_w_dlds (- dlds)%R w))
    else ret tt
  else
    (if a_iter_jac s then ret tt else arc_aa false) ;;;
    s <~ gets ;;
    b <~ lift (vset (repeat 0%R (length (a_b s))) n 1%R) ;;
    mods (set_a_b b) ;;;
    x <~ arc_solve b ;;
    mods (set_a_x x) ;;;
    let nrm := vnorm2 x in
    d <~ lift (for_range 0 n (fun i d => xi <- vget x i ;; vset d i (xi / nrm)%R) (w_duds w)) ;;
    xn <~ lift (vget x n) ;;
    modw (fun w => set_w_duds d (set_w_dlds (xn / nrm)%R w)).

(** solver_arclength.rs:532-541: N = theta (u - u0)^T du/ds + (2 - theta) (lambda - lambda0) dl/ds - sigma *)
Definition arc_nn (u : vec) (l : R) : M E R :=
  w <~ getw ;;
  s <~ gets ;;
  du <~ (if Rltb 0 (a_theta s) then
           lift (for_range 0 (y_ndim sys) (fun i a =>
                   wi <- vget (w_u w) i ;;
                   ui <- vget u i ;;
                   di <- vget (w_duds w) i ;;
                   Ok (a + (wi - ui) * di)%R) 0%R)
         else ret 0%R) ;;
  ret (a_theta s * du + (2 - a_theta s) * (w_l w - l) * w_dlds w - w_h w)%R.

(** solver_arclength.rs:554-588: bordering; None stands for the status BorderingSmallDenominator *)
Definition arc_bordering (nn : R) : M E (option vec) :=
  arc_jac ;;;
  mods (set_a_iter_jac true) ;;;
  s <~ gets ;;
  dua <~ arc_solve (a_ggl s) ;;
  mods (set_a_mdu dua) ;;;
  w <~ getw ;;
  dub <~ arc_solve (w_gg w) ;;
  mods (set_a_u_aux dub) ;;;
  let nnl := ((2 - a_theta s) * w_dlds w)%R in
  let den := (a_theta s * inner (w_duds w) dua - nnl)%R in
  if Rltb (Rabs den) H_MIN then ret None
  else
    let dl := ((nn - a_theta s * inner (w_duds w) dub) / den)%R in
    x <~ lift (for_range 0 (y_ndim sys) (fun i x =>
           a <- vget dua i ;;
           b <- vget dub i ;;
           vset x i (- dl * a - b)%R) (a_x s)) ;;
    x <~ lift (vset x (y_ndim sys) dl) ;;
    mods (set_a_x x) ;;;
    ret (Some x).

(** solver_arclength.rs:589-605: the augmented system *)
Definition arc_augmented (nn : R) : M E (option vec) :=
  arc_aa false ;;;
  mods (set_a_iter_jac true) ;;;
  s <~ gets ;;
  w <~ getw ;;
  b <~ lift (for_range 0 (y_ndim sys) (fun i b => g <- vget (w_gg w) i ;; vset b i (- g)%R) (a_b s)) ;;
  b <~ lift (vset b (y_ndim sys) (- nn)%R) ;;
  mods (set_a_b b) ;;;
  x <~ arc_solve b ;;
  mods (set_a_x x) ;;;
  ret (Some x).

(** solver_arclength.rs:527-640 `iterate` *)
Definition arc_iterate (u : vec) (l : R) : M E status :=
  call_gg sys ;;;
  nn <~ arc_nn u l ;;
  bad <~ an_residual fin cfg nn ;;
  if bad then ret NanOrInfResidual
  else
    c <~ is_conv ;;
    if c then ret Success
    else
      xo <~ (if c_bordering cfg then arc_bordering nn else arc_augmented nn) ;;
      match xo with
      | None => ret BorderingSmallDenominator
      | Some x =>
          after_solve fin cfg sys x
            (w <~ getw ;;
             v <~ lift (for_range 0 (y_ndim sys) (fun i v =>
                    vi <- vget v i ;;
                    xi <- vget x i ;;
                    vset v i (vi + xi)%R) (w_u w)) ;;
             xn <~ lift (vget x (y_ndim sys)) ;;
             modw (fun w => set_w_u v (set_w_l (w_l w + xn)%R w))) u l
      end.

(** solver_arclength.rs:650-679 `initialize` *)
Definition arc_initialize (ddl_ini : R) (u : vec) (l : R) (dir : bool) : M E unit :=
  mods (fun s => set_a_theta 1 (set_a_iter_jac false s)) ;;;
  w <~ getw ;;
  v <~ lift (vcopy (w_u w) u) ;;
  modw (fun w => set_w_u v (set_w_l l w)) ;;;
  arc_initial_tangent (if dir then 1 else -1)%R ;;;
  w <~ getw ;;
  if Rltb (Rabs (w_dlds w)) H_MIN then lift (Err "initial dl/ds0 is too small")
  else modw (set_w_h (ddl_ini / Rabs (w_dlds w))%R).

(** solver_arclength.rs:701-711: predicted lambda *)
Definition arc_lambda (l : R) (st : stop) : M E unit :=
  s <~ gets ;;
  modw (fun w => set_w_l (l + (2 - a_theta s) * w_h w * w_dlds w)%R w) ;;;
  match stop_lambda st with
  | Some (l1, is_min) =>
      w <~ getw ;;
      if (Rleb (w_l w) l1 && is_min) || (Rleb l1 (w_l w) && negb is_min) then
        mods (set_a_theta 0) ;;;
        modw (fun w => set_w_h (2 * (l1 - l) * w_dlds w)%R w) ;;;
        modw (fun w => set_w_l (l + 2 * w_h w * w_dlds w)%R w)
      else ret tt
  | None => ret tt
  end.

(** solver_arclength.rs:713-733: predicted u *)
Definition arc_predict (u : vec) (l : R) (st : stop) : M E unit :=
  s <~ gets ;;
  w <~ getw ;;
  v <~ (if Rltb 0 (a_theta s) then lift (vadd (w_u w) 1 u (a_theta s * w_h w) (w_duds w))
        else lift (vcopy (w_u w) u)) ;;
  modw (set_w_u v) ;;;
  match stop_u_comp st with
  | Some (i, u1, is_min) =>
      vi <~ lift (vget v i) ;;
      if (Rltb vi u1 && is_min) || (Rltb u1 vi && negb is_min) then
        di <~ lift (vget (w_duds w) i) ;;
        if Rltb H_MIN (Rabs di) then
          ui <~ lift (vget u i) ;;
          let h := ((u1 - ui) / di)%R in
          v <~ lift (vadd (w_u w) 1 u (a_theta s * h) (w_duds w)) ;;
          modw (fun w => set_w_h h (set_w_l (l + (2 - a_theta s) * h * w_dlds w)%R (set_w_u v w)))
        else lift (Err "INTERNAL ERROR: duds[i] is too small")
      else ret tt
  | None => ret tt
  end.

(** solver_arclength.rs:682-798 `step` *)
Definition arc_step (u : vec) (l : R) (st : stop) : M E status :=
  step_begin cfg sys u l ;;;
  arc_lambda l st ;;;
  arc_predict u l st ;;;
  s <~ call_update sys true u l ;;
  if failure s then ret s
  else
    push_debug cfg ;;;
    mods (set_a_iter_jac false) ;;;
    r <~ iterations cfg (arc_iterate u l) ;;
    (if success r then arc_update_tangent else ret tt) ;;;
    ret r.

(** solver_arclength.rs:808-871 `accept`: the relative change of the tangent vector *)
Definition arc_rdiff : M E R :=
  w <~ getw ;;
  s <~ gets ;;
  let n := y_ndim sys in
  let tol := c_tg_tol cfg in
  if c_rdiff_ave cfg then
    p <~ lift (for_range 0 n (fun i (p : R * nat) =>
           q <- vget (a_duds_prev s) i ;;
           let den := Rabs q in
           if Rltb H_MIN den then
             d <- vget (w_duds w) i ;;
             Ok ((fst p + Rabs (d - q) / den / tol)%R, snd p + 1)
           else Ok p) (0%R, 0)) ;;
    let den := Rabs (a_dlds_prev s) in
    let p := if Rltb H_MIN den
             then ((fst p + Rabs (w_dlds w - a_dlds_prev s) / den / tol)%R, snd p + 1) else p in
    ret (if 0 <? snd p then (fst p / INR (snd p))%R else 0%R)
  else
    m <~ lift (for_range 0 n (fun i m =>
           q <- vget (a_duds_prev s) i ;;
           let den := Rabs q in
           if Rltb H_MIN den then
             d <- vget (w_duds w) i ;;
             let r := (Rabs (d - q) / den)%R in
             Ok (if Rltb m r then r else m)
           else Ok m) 0%R) ;;
    let den := Rabs (a_dlds_prev s) in
    let r := (Rabs (w_dlds w - a_dlds_prev s) / den)%R in
    let m := if Rltb H_MIN den then (if Rltb m r then r else m) else m in
    ret (m / tol)%R.
Definition arc_accept (u : vec) (l : R) : M E (vec * R * R) :=
  w <~ getw ;;
  v <~ lift (vcopy u (w_u w)) ;;
  rdiff <~ arc_rdiff ;;
  ret (v, w_l w, rdiff).

Definition arclength_ops : solver_ops (arcst F) A :=
  mkOps arc_initialize arc_step arc_accept (reject cfg sys).
End ArclengthSolver.

(* ------------------------------------------------------------------ *)
(** * solver.rs *)

(** solver.rs:15-33 `Solver`, together with the arguments `args`, `u`, `l` and `output` of `solve` *)
Record drv (S : Type) (A : Type) := mkDrv {
  d_env : env S A;
  d_u : vec;
  d_l : R;
  d_out : option (output A);
  d_rerr_prev : R;
  d_rerr_anc : R;
  d_h_prev : R;
  d_h_anc : R }.
Arguments mkDrv {S} {A}.
Arguments d_env {S} {A}.
Arguments d_u {S} {A}.
Arguments d_l {S} {A}.
Arguments d_out {S} {A}.
Arguments d_rerr_prev {S} {A}.
Arguments d_rerr_anc {S} {A}.
Arguments d_h_prev {S} {A}.
Arguments d_h_anc {S} {A}.
Definition set_d_env {S A : Type} (v : env S A) (r : (drv S A)) : (drv S A) :=
  mkDrv v (d_u r) (d_l r) (d_out r) (d_rerr_prev r) (d_rerr_anc r) (d_h_prev r) (d_h_anc r).
Definition set_d_u {S A : Type} (v : vec) (r : (drv S A)) : (drv S A) :=
  mkDrv (d_env r) v (d_l r) (d_out r) (d_rerr_prev r) (d_rerr_anc r) (d_h_prev r) (d_h_anc r).
Definition set_d_l {S A : Type} (v : R) (r : (drv S A)) : (drv S A) :=
  mkDrv (d_env r) (d_u r) v (d_out r) (d_rerr_prev r) (d_rerr_anc r) (d_h_prev r) (d_h_anc r).
Definition set_d_out {S A : Type} (v : option (output A)) (r : (drv S A)) : (drv S A) :=
  mkDrv (d_env r) (d_u r) (d_l r) v (d_rerr_prev r) (d_rerr_anc r) (d_h_prev r) (d_h_anc r).
Definition set_d_rerr_prev {S A : Type} (v : R) (r : (drv S A)) : (drv S A) :=
  mkDrv (d_env r) (d_u r) (d_l r) (d_out r) v (d_rerr_anc r) (d_h_prev r) (d_h_anc r).
Definition set_d_rerr_anc {S A : Type} (v : R) (r : (drv S A)) : (drv S A) :=
  mkDrv (d_env r) (d_u r) (d_l r) (d_out r) (d_rerr_prev r) v (d_h_prev r) (d_h_anc r).
Definition set_d_h_prev {S A : Type} (v : R) (r : (drv S A)) : (drv S A) :=
  mkDrv (d_env r) (d_u r) (d_l r) (d_out r) (d_rerr_prev r) (d_rerr_anc r) v (d_h_anc r).
Definition set_d_h_anc {S A : Type} (v : R) (r : (drv S A)) : (drv S A) :=
  mkDrv (d_env r) (d_u r) (d_l r) (d_out r) (d_rerr_prev r) (d_rerr_anc r) (d_h_prev r) v.

(** f64::powf for a non-negative base; where f64 gives an infinity (zero to a negative power) the
    value here is arbitrary but positive *)
Definition powf (x y : R) : R :=
  if Reqb x 0 then (if Reqb y 0 then 1 else if Rltb 0 y then 0 else 1)%R else Rpower x y.

Section Driver.
Variables (S A : Type).
Variable fin : R -> bool.
Variable cfg : config.
Variable ops : solver_ops S A.
Let D := drv S A.

Definition on_env {X} (m : M (env S A) X) : M D X := fun d =>
  let '(e, r) := m (d_env d) in (set_d_env e d, r).
Definition dw : M D work := fun d => (d, Ok (e_w (d_env d))).
Definition mdw (f : work -> work) : M D unit := on_env (modw f).
Definition mdst (f : stats -> stats) : M D unit := on_env (modst f).

(** output.as_deref_mut() ... out.execute(&self.work, u, *l, args)? *)
Definition output_step : M D bool := fun d =>
  match d_out d with
  | None => (d, Ok false)
  | Some o =>
      let e := d_env d in
      let '(o', a, r) := execute (e_w e) (d_u d) (d_l d) o (e_a e) in
      (set_d_out (Some o') (set_d_env (set_e_a a e) d), r)
  end.

(** self.actual.accept(&mut self.work, u, l, args)? *)
Definition do_accept : M D R := fun d =>
  match op_accept ops (d_u d) (d_l d) (d_env d) with
  | (e, Ok (u, l, r)) => (set_d_env e (set_d_u u (set_d_l l d)), Ok r)
  | (e, Err m) => (set_d_env e d, Err m)
  | (e, Panic) => (set_d_env e d, Panic)
  end.

(** solver.rs:355-362: ksi *)
Definition ctl_ksi (w : work) : R :=
  if c_nr_control cfg then
    powf (INR (c_nr_n_opt cfg) / Rmax 1 (INR (w_n_iteration w))) (c_nr_beta cfg)
  else 1%R.
(** solver.rs:373-405: rho *)
Definition ctl_rho (d : D) (rdiff : R) : R :=
  let w := e_w (d_env d) in
  let na := st_n_accepted (w_stats w) in
  if c_tg_control cfg then
    if Reqb rdiff 0 then c_tg_rho_tiny cfg
    else if c_tg_pid cfg then
      let p := if 1 <? na then (d_rerr_prev d / rdiff)%R else 1%R in
      let dd := if (2 <? na) && Rltb 0 (d_rerr_anc d)
                then (d_rerr_prev d * d_rerr_prev d / (rdiff * d_rerr_anc d))%R else 1%R in
      (powf p 0.075 * powf (1 / rdiff) 0.175 * powf dd 0.01)%R
    else
      let rho := powf (1 / rdiff) (c_beta1 cfg) in
      let rho := if 1 <? na then
                   (rho * powf (1 / d_rerr_prev d) (c_beta2 cfg)
                        * powf (w_h w / d_h_prev d) (- c_alpha2 cfg))%R
                 else rho in
      if 2 <? na then
        (rho * powf (1 / d_rerr_anc d) (c_beta3 cfg)
             * powf (d_h_prev d / d_h_anc d) (- c_alpha3 cfg))%R
      else rho
  else 1%R.

(** solver.rs:354-416 `adapt_stepsize` *)
Definition adapt_stepsize (rdiff : R) : M D R :=
  d <~ get ;;
  let w := e_w (d_env d) in
  let ksi := ctl_ksi w in
  lift (assert_ (Rleb 0 rdiff)) ;;;
  let rdiff := if Rltb rdiff (c_tg_rdiff_min cfg) then 0%R else rdiff in
  let rho := ctl_rho d rdiff in
  modify (fun d => set_d_rerr_anc (d_rerr_prev d) d) ;;;
  modify (fun d => set_d_rerr_prev rdiff d) ;;;
  modify (fun d => set_d_h_anc (d_h_prev d) d) ;;;
  modify (fun d => set_d_h_prev (w_h w) d) ;;;
  ret (w_h w * (1 + atan (ksi * rho - 1)))%R.

(** solver.rs:157-211: body of the loop with constant or listed steps *)
Definition fixed_body (st : stop) (ddl : delta_lambda) (i : nat) (_ : status) : M D (bool * status) :=
  mdst (fun s => set_st_n_steps (st_n_steps s + 1) s) ;;;
  d <~ get ;;
  s <~ on_env (op_step ops (d_u d) (d_l d) st) ;;
  if failure s then ret (true, s)
  else
    mdst (fun s => set_st_n_accepted (st_n_accepted s + 1) s) ;;;
    _ <~ do_accept ;;
    (if i + 1 <? length (dl_list ddl) then
       next <~ lift (vget (dl_list ddl) (i + 1)) ;;
       if Rleb next H_MIN then lift (Err "requirement: ddl > 1e-10")
       else
         match c_method cfg with
         | Arclength =>
             w <~ dw ;;
             let den := Rabs (w_dlds w) in
             if Rltb den H_MIN then lift (Err "dl/ds is too small to calculate the stepsize")
             else mdw (set_w_h (next / den)%R)
         | Natural => mdw (set_w_h next)
         end
     else ret tt) ;;;
    mdw (fun w => set_w_stats (set_st_h_accepted (w_h w) (w_stats w)) w) ;;;
    d <~ get ;;
    lift (vall_finite fin (d_u d)) ;;;
    b <~ output_step ;;
    if b then ret (true, s)
    else
      d <~ get ;;
      b <~ lift (stop_now st i (d_u d) (d_l d)) ;;
      ret (b, s).

(** solver.rs:223-232: a step that passes the target component is not a success *)
Definition check_precise (st : stop) (s : status) : M D status :=
  if c_precise cfg then
    match stop_u_comp st with
    | Some (i, u1, is_min) =>
        w <~ dw ;;
        ui <~ lift (vget (w_u w) i) ;;
        if (is_min && Rltb ui (u1 - H_MIN)) || (negb is_min && Rltb (u1 + H_MIN) ui)
        then ret UnmetStopCriterion else ret s
    | None => ret s
    end
  else ret s.

(** solver.rs:256-309: reject or accept; true means that the loop ends with this status *)
Definition auto_finish (st : stop) (i : nat) (s : status) : M D bool :=
  if failure s then
    mdst (fun t => set_st_n_rejected (st_n_rejected t + 1) t) ;;;
    mdw (set_w_follows_rejection true) ;;;
    on_env (op_reject ops) ;;;
    mdw (fun w => set_w_h (w_h w * c_m_failure cfg)%R w) ;;;
    ret false
  else
    mdst (fun t => set_st_n_accepted (st_n_accepted t + 1) t) ;;;
    rdiff <~ do_accept ;;
    d <~ get ;;
    lift (vall_finite fin (d_u d)) ;;;
    w <~ dw ;;
    if w_target_reached w then ret true
    else
      h_est <~ adapt_stepsize rdiff ;;
      w <~ dw ;;
      let h_est := if w_follows_failure w || w_follows_rejection w then Rmin h_est (w_h w) else h_est in
      mdw (set_w_h h_est) ;;;
      mdst (set_st_h_accepted h_est) ;;;
      mdw (set_w_n_cont_failure 0) ;;;
      mdw (set_w_n_cont_rejection 0) ;;;
      mdw (set_w_follows_failure false) ;;;
      mdw (set_w_follows_rejection false) ;;;
      b <~ output_step ;;
      if b then ret true
      else
        d <~ get ;;
        lift (stop_now st i (d_u d) (d_l d)).

(** solver.rs:214-316: body of the loop with automatic steps *)
Definition auto_body (st : stop) (i : nat) (_ : status) : M D (bool * status) :=
  mdst (fun s => set_st_n_steps (st_n_steps s + 1) s) ;;;
  d <~ get ;;
  s <~ on_env (op_step ops (d_u d) (d_l d) st) ;;
  s <~ check_precise st s ;;
  if failure s && negb (try_again s) then ret (true, s)
  else
    (if failure s then
       mdw (fun w => set_w_n_cont_failure (w_n_cont_failure w + 1) w) ;;;
       mdw (set_w_follows_failure true)
     else ret tt) ;;;
    w <~ dw ;;
    if c_n_cont_failure_max cfg <=? w_n_cont_failure w then ret (true, ContinuedFailure)
    else if c_n_cont_rejection_max cfg <=? w_n_cont_rejection w then ret (true, ContinuedRejection)
    else
      b <~ auto_finish st i s ;;
      if b then ret (true, s)
      else
        w <~ dw ;;
        if Rltb (w_h w) H_MIN then ret (true, SmallStepsize) else ret (false, s).

(** solver.rs:118-139 and 149-329 `solve`; [dir] is true for IniDir::Pos *)
Definition solve (ndim : nat) (dir : bool) (st : stop) (ddl : delta_lambda) : M D status :=
  d <~ get ;;
  if negb (length (d_u d) =? ndim) then lift (Err "u.dim() must be equal to ndim")
  else
    lift (stop_validate st (d_u d) (d_l d)) ;;;
    mdw (work_reset (dl_auto ddl)) ;;;
    ini <~ lift (ddl_initial ddl st (d_l d)) ;;
    on_env (op_initialize ops ini (d_u d) (d_l d) dir) ;;;
    b <~ output_step ;;
    if b then ret Success
    else if negb (dl_auto ddl) then
      mloop (if 0 <? length (dl_list ddl) then length (dl_list ddl) else c_n_step_max cfg) 0
            (fixed_body st ddl) Success
    else mloop (c_n_step_max cfg) 0 (auto_body st) Success.
End Driver.
