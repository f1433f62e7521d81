(** Model of russell_ode: the explicit Runge-Kutta stepper (explicit_runge_kutta.rs), its dense output
    (erk_dense_out.rs) and the forward Euler stepper (euler_forward.rs).
    f64 is read as R (exact arithmetic); the coefficients are the exact rationals of Erk_Tab_Model.
    The user's function is a deterministic [f : R -> vec -> res vec] that returns the vector it writes
    (the `args` are part of [f]); f64::powf is an arbitrary function [powf]. Debug printing is omitted. *)
From Coq Require Import Qreals.
From Verif Require Export Ode_Drv_Model.
Open Scope nat_scope.

(** russell_lab vec_copy.rs:36-46 followed by unwrap: v := u *)
Definition vcopy (v u : vec) : res vec := if length u =? length v then Ok u else Panic.
(** russell_lab vec_update.rs:38-48 followed by unwrap: v := v + alpha u (cblas_daxpy) *)
Definition vupdate (v : vec) (alpha : R) (u : vec) : res vec :=
  if length u =? length v then Ok (map (fun p => fst p + alpha * snd p)%R (combine v u)) else Panic.
(** `for m in 0..n { v[m] = g(m) }` on a vector of length n *)
Fixpoint tab {A} (l : list nat) (g : nat -> res A) : res (list A) :=
  match l with
  | [] => Ok []
  | i :: t => a <- g i ;; b <- tab t g ;; Ok (a :: b)
  end.
Definition tabulate {A} (n : nat) (g : nat -> res A) : res (list A) := tab (seq 0 n) g.
(** matrix or vector-of-vectors element *)
Definition mget (a : list (list R)) (i j : nat) : res R := row <- vget a i ;; vget row j.

Definition zeros (n : nat) : vec := repeat 0%R n.

(** erk_dense_out.rs:7-22 `ErkDenseOut` (the scratch vector yd is omitted) *)
Record dense := mkDense { de_method : method; de_d : list vec; de_kd : list vec }.

(** erk_dense_out.rs:26-57 *)
Definition dense_new (m : method) (ndim : nat) : res dense :=
  match m with
  | DoPri5 => Ok (mkDense m (repeat (zeros ndim) 5) [])
  | DoPri8 => Ok (mkDense m (repeat (zeros ndim) 8) (repeat (zeros ndim) 3))
  | Radau5 | BwEuler | FwEuler => Err "INTERNAL ERROR: cannot use this method with ErkDenseOut"
  | _ => Err "dense output is not available for this method"
  end.

(** a sum  row[j1] v1[m] + row[j2] v2[m] + ... *)
Definition wsum (row : list R) (terms : list (nat * vec)) (m : nat) : res R :=
  for_each terms (fun p acc => a <- vget row (fst p) ;; c <- vget (snd p) m ;; Ok (acc + a * c)%R) 0%R.

Definition Rrow (l : list Q) : list R := map Q2R l.
Definition Rmat (l : list (list Q)) : list (list R) := map Rrow l.

(** erk_dense_out.rs:60-206 `update`: returns the number of function evaluations *)
Definition dense_update (ndim : nat) (f : R -> vec -> res vec) (x : R) (y : vec) (h : R) (w : vec) (k : list vec)
    (o : dense) : res (dense * nat) :=
  match de_method o with
  | DoPri5 =>
    k0 <- vget k 0 ;; k2 <- vget k 2 ;; k3 <- vget k 3 ;; k4 <- vget k 4 ;; k5 <- vget k 5 ;; k6 <- vget k 6 ;;
    row <- vget (Rmat DORMAND_PRINCE_5_D) 0 ;;
    d0 <- tabulate ndim (fun m => vget y m) ;;
    d1 <- tabulate ndim (fun m => wm <- vget w m ;; ym <- vget y m ;; Ok (wm - ym)%R) ;;
    d2 <- tabulate ndim (fun m => wm <- vget w m ;; ym <- vget y m ;; km <- vget k0 m ;; Ok (h * km - (wm - ym))%R) ;;
    d3 <- tabulate ndim (fun m => wm <- vget w m ;; ym <- vget y m ;; km <- vget k0 m ;; kl <- vget k6 m ;;
                                  Ok ((wm - ym) - h * kl - (h * km - (wm - ym)))%R) ;;
    d4 <- tabulate ndim (fun m => s <- wsum row [(0, k0); (2, k2); (3, k3); (4, k4); (5, k5); (6, k6)] m ;; Ok (s * h)%R) ;;
    Ok (mkDense DoPri5 [d0; d1; d2; d3; d4] (de_kd o), 0)
  | DoPri8 =>
    k0 <- vget k 0 ;; k5 <- vget k 5 ;; k6 <- vget k 6 ;; k7 <- vget k 7 ;; k8 <- vget k 8 ;; k9 <- vget k 9 ;;
    k10 <- vget k 10 ;; k11 <- vget k 11 ;;
    a0 <- vget (Rmat DORMAND_PRINCE_8_AD) 0 ;; a1 <- vget (Rmat DORMAND_PRINCE_8_AD) 1 ;; a2 <- vget (Rmat DORMAND_PRINCE_8_AD) 2 ;;
    c0 <- vget (Rrow DORMAND_PRINCE_8_CD) 0 ;; c1 <- vget (Rrow DORMAND_PRINCE_8_CD) 1 ;; c2 <- vget (Rrow DORMAND_PRINCE_8_CD) 2 ;;
    yd <- tabulate ndim (fun m => ym <- vget y m ;;
            s <- wsum a0 [(0, k0); (6, k6); (7, k7); (8, k8); (9, k9); (10, k10); (11, k11); (12, k11)] m ;; Ok (ym + h * s)%R) ;;
    kd0 <- f (x + c0 * h)%R yd ;;
    yd <- tabulate ndim (fun m => ym <- vget y m ;;
            s <- wsum a1 [(0, k0); (5, k5); (6, k6); (7, k7); (10, k10); (11, k11); (12, k11); (13, kd0)] m ;; Ok (ym + h * s)%R) ;;
    kd1 <- f (x + c1 * h)%R yd ;;
    yd <- tabulate ndim (fun m => ym <- vget y m ;;
            s <- wsum a2 [(0, k0); (5, k5); (6, k6); (7, k7); (8, k8); (12, k11); (13, kd0); (14, kd1)] m ;; Ok (ym + h * s)%R) ;;
    kd2 <- f (x + c2 * h)%R yd ;;
    d0 <- tabulate ndim (fun m => vget y m) ;;
    d1 <- tabulate ndim (fun m => wm <- vget w m ;; ym <- vget y m ;; Ok (wm - ym)%R) ;;
    d2 <- tabulate ndim (fun m => wm <- vget w m ;; ym <- vget y m ;; km <- vget k0 m ;; Ok (h * km - (wm - ym))%R) ;;
    d3 <- tabulate ndim (fun m => wm <- vget w m ;; ym <- vget y m ;; km <- vget k0 m ;; kl <- vget k11 m ;;
                                  Ok ((wm - ym) - h * kl - (h * km - (wm - ym)))%R) ;;
    let row r := tabulate ndim (fun m => dr <- vget (Rmat DORMAND_PRINCE_8_D) r ;;
        s <- wsum dr [(0, k0); (5, k5); (6, k6); (7, k7); (8, k8); (9, k9); (10, k10); (11, k11); (12, k11); (13, kd0); (14, kd1); (15, kd2)] m ;;
        Ok (h * s)%R) in
    d4 <- row 0 ;; d5 <- row 1 ;; d6 <- row 2 ;; d7 <- row 3 ;;
    Ok (mkDense DoPri8 [d0; d1; d2; d3; d4; d5; d6; d7] [kd0; kd1; kd2], 3)
  | _ => Ok (o, 0)
  end.

(** erk_dense_out.rs:209-230 `calculate` *)
Definition dense_calculate (ndim : nat) (x_out x h : R) (o : dense) : res vec :=
  let theta := ((x_out - (x - h)) / h)%R in
  let u := (1 - theta)%R in
  match de_method o with
  | DoPri5 =>
    tabulate ndim (fun m =>
      d0 <- mget (de_d o) 0 m ;; d1 <- mget (de_d o) 1 m ;; d2 <- mget (de_d o) 2 m ;; d3 <- mget (de_d o) 3 m ;; d4 <- mget (de_d o) 4 m ;;
      Ok (d0 + theta * (d1 + u * (d2 + theta * (d3 + u * d4))))%R)
  | DoPri8 =>
    tabulate ndim (fun m =>
      d0 <- mget (de_d o) 0 m ;; d1 <- mget (de_d o) 1 m ;; d2 <- mget (de_d o) 2 m ;; d3 <- mget (de_d o) 3 m ;;
      d4 <- mget (de_d o) 4 m ;; d5 <- mget (de_d o) 5 m ;; d6 <- mget (de_d o) 6 m ;; d7 <- mget (de_d o) 7 m ;;
      let par := (d4 + theta * (d5 + u * (d6 + theta * d7)))%R in
      Ok (d0 + theta * (d1 + u * (d2 + theta * (d3 + u * par))))%R)
  | _ => Ok (zeros ndim)
  end.

(** explicit_runge_kutta.rs:23-76 `ExplicitRungeKutta` (the system is [ndim] and [f]) *)
Record erk := mkErk {
  e_params : params;
  e_info : information;
  e_aa : list (list R);
  e_bb : list R;
  e_cc : list R;
  e_ee : option (list R);
  e_nstage : nat;
  e_lund : R;
  e_dmin : R;
  e_dmax : R;
  e_v : list vec;
  e_k : list vec;
  e_w : vec;
  e_dense : option dense }.

Definition set_e_params p s := mkErk p (e_info s) (e_aa s) (e_bb s) (e_cc s) (e_ee s) (e_nstage s) (e_lund s) (e_dmin s) (e_dmax s) (e_v s) (e_k s) (e_w s) (e_dense s).
Definition set_e_v v s := mkErk (e_params s) (e_info s) (e_aa s) (e_bb s) (e_cc s) (e_ee s) (e_nstage s) (e_lund s) (e_dmin s) (e_dmax s) v (e_k s) (e_w s) (e_dense s).
Definition set_e_k k s := mkErk (e_params s) (e_info s) (e_aa s) (e_bb s) (e_cc s) (e_ee s) (e_nstage s) (e_lund s) (e_dmin s) (e_dmax s) (e_v s) k (e_w s) (e_dense s).
Definition set_e_w w s := mkErk (e_params s) (e_info s) (e_aa s) (e_bb s) (e_cc s) (e_ee s) (e_nstage s) (e_lund s) (e_dmin s) (e_dmax s) (e_v s) (e_k s) w (e_dense s).
Definition set_e_dense d s := mkErk (e_params s) (e_info s) (e_aa s) (e_bb s) (e_cc s) (e_ee s) (e_nstage s) (e_lund s) (e_dmin s) (e_dmax s) (e_v s) (e_k s) (e_w s) d.

(** explicit_runge_kutta.rs:80-147 `new` *)
Definition erk_new (p : params) (ndim : nat) : res erk :=
  match erk_tableau (p_method p) with
  | None => Err "cannot use this method with ExplicitRungeKutta"
  | Some (A, b, c) =>
    let info := method_information (p_method p) in
    ee <- erk_ee (p_method p) ;;
    let nstage := length b in
    Ok (mkErk p info (Rmat A) (Rrow b) (Rrow c) (option_map Rrow ee) nstage
          (1 / INR (i_order_of_estimator info + 1) - lund_beta (p_erk p) * lund_m (p_erk p))%R
          (1 / m_min (p_step p))%R (1 / m_max (p_step p))%R
          (repeat (zeros ndim) nstage) (repeat (zeros ndim) nstage) (zeros ndim) None)
  end.

Section Erk.
Variable ndim : nat.
Variable f : R -> vec -> res vec.
Variable powf : R -> R -> R.

(** explicit_runge_kutta.rs:152-155 *)
Definition erk_enable_dense (s : erk) : res erk :=
  d <- dense_new (p_method (e_params s)) ndim ;; Ok (set_e_dense (Some d) s).

(** explicit_runge_kutta.rs:163-167: whether k0 is computed *)
Definition needs_k0 (s : erk) (w : workspace) : bool :=
  ((n_accepted (w_stats w) =? 0) || negb (i_fsal (e_info s))) && negb (w_follows_reject w).

(** explicit_runge_kutta.rs:170-178: one stage; the counter is [n_function] *)
Definition erk_stage (s : erk) (x : R) (y : vec) (h : R) (i : nat) (st : list vec * list vec * workspace) : res (list vec * list vec * workspace) :=
  let '(k, v, w) := st in
  ci <- vget (e_cc s) i ;;
  let ui := (x + h * ci)%R in
  vi <- vget v i ;;
  vi <- vcopy vi y ;;
  vi <- for_range 0 i (fun j vi => aij <- mget (e_aa s) i j ;; kj <- vget k j ;; vupdate vi (h * aij)%R kj) vi ;;
  v <- vset v i vi ;;
  let w := add_n_function 1 w in
  ki <- f ui vi ;;
  k <- vset k i ki ;;
  Ok (k, v, w).

(** explicit_runge_kutta.rs:182-187 *)
Definition erk_update_plain (s : erk) (k : list vec) (y : vec) (h : R) : res vec :=
  for_range 0 ndim (fun m w =>
    ym <- vget y m ;;
    wm <- for_range 0 (e_nstage s) (fun i acc => bi <- vget (e_bb s) i ;; kim <- mget k i m ;; Ok (acc + bi * kim * h)%R) ym ;;
    vset w m wm) (e_w s).

(** explicit_runge_kutta.rs:196-219: (w, rel_error) *)
Definition erk_update_dopri8 (s : erk) (ee : list R) (k : list vec) (y : vec) (h : R) : res (vec * R) :=
  let tol := p_tol (e_params s) in
  '(w, err_3, err_5) <- for_range 0 ndim (fun m '(w, err_3, err_5) =>
    ym <- vget y m ;;
    '(wm, err_a, err_b) <- for_range 0 (e_nstage s) (fun i '(wm, err_a, err_b) =>
        bi <- vget (e_bb s) i ;; kim <- mget k i m ;; ei <- vget ee i ;;
        Ok (wm + bi * kim * h, err_a + bi * kim, err_b + ei * kim)%R) (ym, 0%R, 0%R) ;;
    w <- vset w m wm ;;
    let sk := (t_abs tol + t_rel tol * Rmax (Rabs ym) (Rabs wm))%R in
    k0m <- mget k 0 m ;; k8m <- mget k 8 m ;; k11m <- mget k 11 m ;;
    let err_a := (err_a - (Q2R DORMAND_PRINCE_8_BHH1 * k0m + Q2R DORMAND_PRINCE_8_BHH2 * k8m + Q2R DORMAND_PRINCE_8_BHH3 * k11m))%R in
    Ok (w, err_3 + (err_a / sk) * (err_a / sk), err_5 + (err_b / sk) * (err_b / sk))%R) (e_w s, 0%R, 0%R) ;;
  let den := (err_5 + 0.01 * err_3)%R in
  let den := if Rleb den 0 then 1%R else den in
  Ok (w, Rabs h * err_5 * sqrt (1 / (INR ndim * den)))%R.

(** explicit_runge_kutta.rs:221-236: (w, rel_error) *)
Definition erk_update_embedded (s : erk) (ee : list R) (k : list vec) (y : vec) (h : R) : res (vec * R) :=
  let tol := p_tol (e_params s) in
  '(w, sum) <- for_range 0 ndim (fun m '(w, sum) =>
    ym <- vget y m ;;
    '(wm, err_m) <- for_range 0 (e_nstage s) (fun i '(wm, err_m) =>
        kim <- mget k i m ;;
        let kh := (kim * h)%R in
        bi <- vget (e_bb s) i ;; ei <- vget ee i ;;
        Ok (wm + bi * kh, err_m + ei * kh)%R) (ym, 0%R) ;;
    w <- vset w m wm ;;
    let sk := (t_abs tol + t_rel tol * Rmax (Rabs ym) (Rabs wm))%R in
    let ratio := (err_m / sk)%R in
    Ok (w, sum + ratio * ratio)%R) (e_w s, 0%R) ;;
  Ok (w, Rmax (sqrt (sum / INR ndim)) 1e-10)%R.

(** explicit_runge_kutta.rs:180-237: the new solution and the error, after the stages *)
Definition erk_finish (s : erk) (w : workspace) (y : vec) (h : R) : res (erk * workspace) :=
  if negb (i_embedded (e_info s)) then
    wv <- erk_update_plain s (e_k s) y h ;; Ok (set_e_w wv s, w)
  else
    ee <- match e_ee s with Some e => Ok e | None => Panic end ;;
    '(wv, err) <- (if method_eqb (p_method (e_params s)) DoPri8 then erk_update_dopri8 s ee (e_k s) y h
                   else erk_update_embedded s ee (e_k s) y h) ;;
    Ok (set_e_w wv s, set_w_rel_error err w).

(** explicit_runge_kutta.rs:158-238 `step`; [fresh] computes k0 *)
Definition erk_step_gen (fresh : erk -> workspace -> bool) (s : erk) (w : workspace) (x : R) (y : vec) (h : R) : res (erk * workspace) :=
  let w1 := if needs_k0 s w then add_n_function 1 w else w in
  k <- (if fresh s w then k0 <- f x y ;; vset (e_k s) 0 k0 else Ok (e_k s)) ;;
  '(k, v, w2) <- for_range 1 (e_nstage s) (erk_stage s x y h) (k, e_v s, w1) ;;
  erk_finish (set_e_v v (set_e_k k s)) w2 y h.
Definition erk_step := erk_step_gen needs_k0.

(** explicit_runge_kutta.rs:282-289 and 298-305: sums of squared differences *)
Definition sum_sq_diff (a b : vec) : res R :=
  for_range 0 ndim (fun m acc => am <- vget a m ;; bm <- vget b m ;; Ok (acc + (am - bm) * (am - bm))%R) 0%R.

(** explicit_runge_kutta.rs:280-311 *)
Definition erk_stiffness (s : erk) (w : workspace) (x : R) (y : vec) (h : R) : res (erk * workspace) :=
  if ps_enabled (p_stiff (e_params s)) then
    match p_method (e_params s) with
    | DoPri5 =>
      k6 <- vget (e_k s) 6 ;; k5 <- vget (e_k s) 5 ;; v6 <- vget (e_v s) 6 ;; v5 <- vget (e_v s) 5 ;;
      num <- sum_sq_diff k6 k5 ;; den <- sum_sq_diff v6 v5 ;;
      let w := if Rltb EPSILON den then set_w_stiff_hrho (h * sqrt (num / den))%R w else w in
      w <- detect_stiffness w (x - h)%R (p_stiff (e_params s)) ;; Ok (s, w)
    | DoPri8 =>
      let w := add_n_function 1 w in
      kn <- f x y ;;
      k <- vset (e_k s) 10 kn ;;
      let s := set_e_k k s in
      k11 <- vget (e_k s) 11 ;; v11 <- vget (e_v s) 11 ;;
      num <- sum_sq_diff kn k11 ;; den <- sum_sq_diff y v11 ;;
      let w := if Rltb EPSILON den then set_w_stiff_hrho (h * sqrt (num / den))%R w else w in
      w <- detect_stiffness w (x - h)%R (p_stiff (e_params s)) ;; Ok (s, w)
    | _ => Ok (s, w)
    end
  else Ok (s, w).

(** explicit_runge_kutta.rs:271-277: the new stepsize *)
Definition erk_new_h (s : erk) (w : workspace) (h : R) : R :=
  let fac := powf (w_rel_error w) (e_lund s) in
  let fac := if Rltb 0 (lund_beta (p_erk (e_params s))) && Rltb 0 (w_rel_error_prev w)
             then (fac / powf (w_rel_error_prev w) (lund_beta (p_erk (e_params s))))%R else fac in
  let fac := Rmax (e_dmax s) (Rmin (e_dmin s) (fac / m_safety (p_step (e_params s)))) in
  (h / fac)%R.

(** explicit_runge_kutta.rs:241-333 `accept` *)
Definition erk_accept (s : erk) (w : workspace) (x : R) (y : vec) (h : R) : res (erk * workspace * R * vec) :=
  '(s, w) <- match e_dense s with
             | Some o => '(o, n) <- dense_update ndim f x y h (e_w s) (e_k s) o ;; Ok (set_e_dense (Some o) s, add_n_function n w)
             | None => Ok (s, w)
             end ;;
  let x := (x + h)%R in
  y <- vcopy y (e_w s) ;;
  s <- (if i_fsal (e_info s) then
          i <- usub (e_nstage s) 1 ;;
          kl <- vget (e_k s) i ;;
          k0 <- vget (e_k s) 0 ;;
          k0 <- for_range 0 ndim (fun m k0 => a <- vget kl m ;; vset k0 m a) k0 ;;
          k <- vset (e_k s) 0 k0 ;;
          Ok (set_e_k k s)
        else Ok s) ;;
  if negb (i_embedded (e_info s)) then Ok (s, w, x, y)
  else
    let w := set_w_h_new (erk_new_h s w h) w in
    '(s, w) <- erk_stiffness s w x y h ;;
    Ok (s, w, x, y).

(** explicit_runge_kutta.rs:336-350 `reject` *)
Definition erk_reject (s : erk) (w : workspace) (h : R) : erk * workspace :=
  let d := (powf (w_rel_error w) (e_lund s) / m_safety (p_step (e_params s)))%R in
  (s, set_w_h_new (h / Rmin (e_dmin s) d)%R w).

(** explicit_runge_kutta.rs:353-357: without dense output y_out is left as it was (here: zeros) *)
Definition erk_dense_output (s : erk) (x_out x : R) (_ : vec) (h : R) : res vec :=
  match e_dense s with
  | Some o => dense_calculate ndim x_out x h o
  | None => Ok (zeros ndim)
  end.

(** explicit_runge_kutta.rs:360-362 *)
Definition erk_update_params (p : params) (s : erk) : erk := set_e_params p s.

Definition erk_ops_gen (fresh : erk -> workspace -> bool) : method_ops erk :=
  mkOps erk erk_enable_dense (erk_step_gen fresh) erk_accept erk_reject erk_dense_output.
Definition erk_ops : method_ops erk := erk_ops_gen needs_k0.

(** euler_forward.rs:9-20: (k, w) *)
Definition fwe := (vec * vec)%type.
(** euler_forward.rs:24-31 *)
Definition fwe_new : fwe := (zeros ndim, zeros ndim).
(** euler_forward.rs:41-46 (vec_add: w := 1 y + h k) *)
Definition fwe_step (s : fwe) (w : workspace) (x : R) (y : vec) (h : R) : res (fwe * workspace) :=
  let w := add_n_function 1 w in
  k <- f x y ;;
  if (length y =? length (snd s)) && (length k =? length (snd s)) then
    Ok ((k, map (fun p => 1 * fst p + h * snd p)%R (combine y k)), w)
  else Panic.
(** euler_forward.rs:49-60 *)
Definition fwe_accept (s : fwe) (w : workspace) (x : R) (y : vec) (h : R) : res (fwe * workspace * R * vec) :=
  y <- vcopy y (snd s) ;; Ok (s, w, (x + h)%R, y).
(** euler_forward.rs:36-38, 63, 66 *)
Definition fwe_ops : method_ops fwe :=
  mkOps fwe (fun _ => Err "dense output is not available for the FwEuler method") fwe_step fwe_accept
    (fun s w _ => (s, w)) (fun _ _ _ _ _ => Ok (zeros ndim)).
End Erk.
