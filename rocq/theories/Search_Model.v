(** russell_lab/src/algo: RootFinder::brent, MinBracketing::basic,
    MinSolver::brent, LineSearcher::search.

    f64 is read as a real number.  The user's callback `f(x, args)` is an
    oracle that may depend on all the earlier calls and answers (that is what a
    deterministic `FnMut` with a mutable `args` can do) and may fail.  Every
    call is recorded, in order, with its answer. *)
From Verif Require Export RBase.

(** f64::EPSILON *)
Definition FEPS : R := (/ 2 ^ 52)%R.
(** math/constants.rs:64; the decimal literal is 2^-26 exactly *)
Definition SQRT_EPS : R := (/ 2 ^ 26)%R.

(** one call of the callback: argument and answer *)
Definition calls := list (R * res R).
Definition callback := calls -> R -> res R.

(** computations that may call the callback *)
Definition M (X : Type) := calls -> calls * res X.
Definition ret {X} (r : res X) : M X := fun l => (l, r).
Definition mbind {X Y} (m : M X) (k : X -> M Y) : M Y :=
  fun l => match m l with
           | (l', Ok x) => k x l'
           | (l', Err e) => (l', Err e)
           | (l', Panic) => (l', Panic)
           end.
Declare Scope m_scope.
Delimit Scope m_scope with m.
Notation "x <~ e ;; k" := (mbind e (fun x => k)) (at level 61, e at next level, right associativity) : m_scope.
Open Scope m_scope.

(** `f(x, args)?` *)
Definition ask (f : callback) (x : R) : M R := fun l => let r := f l x in (l ++ [(x, r)], r).

(** stats.rs:57-107 with tracking enabled (n_jacobian, error estimate and the
    stopwatch are not modelled): n_function, n_iterations *)
Record sstats := mkSS { n_function : nat; n_iterations : nat }.

(* ------------------------------------------------------------------ *)
(** * RootFinder::brent, root_finder_brent.rs:43-189 *)

Record bstate := mkB { b_a : R; b_b : R; b_c : R; b_fa : R; b_fb : R; b_fc : R; b_st : sstats }.

(** root_finder_brent.rs:128-141 *)
Definition brent_pq (a b c fa fb fc : R) : R * R :=
  let del := (c - b)%R in
  if Reqb a c then
    let t0 := (fb / fa)%R in (del * t0, 1 - t0)%R
  else
    let t0 := (fa / fc)%R in
    let t1 := (fb / fc)%R in
    let t2 := (fb / fa)%R in
    (t2 * (del * t0 * (t0 - t1) - (b - a) * (t1 - 1)),
     (t0 - 1) * (t1 - 1) * (t2 - 1))%R.

(** root_finder_brent.rs:113-163: the step taken from b *)
Definition brent_step (step_old tol a b c fa fb fc : R) : R :=
  let step_new := ((c - b) / 2)%R in
  let step_new :=
    if Rleb tol (Rabs step_old) && Rltb (Rabs fb) (Rabs fa) then
      let del := (c - b)%R in
      let '(p, q) := brent_pq a b c fa fb fc in
      let '(p, q) := if Rltb 0 p then (p, - q)%R else (- p, q)%R in
      if Rltb p (0.75 * del * q - Rabs (tol * q) / 2) && Rltb p (Rabs (step_old * q / 2))
      then (p / q)%R else step_new
    else step_new in
  if Rltb (Rabs step_new) tol then (if Rltb 0 step_new then tol else - tol)%R else step_new.

(** root_finder_brent.rs:94-184, at most [n] more iterations *)
Fixpoint brent_loop (f : callback) (tolerance : R) (n : nat) (s : bstate) : M (R * sstats) :=
  match n with
  | 0 => ret (Err "brent solver failed to converge")
  | S n' =>
      let st := mkSS (n_function (b_st s)) (n_iterations (b_st s) + 1) in
      let step_old := (b_b s - b_a s)%R in
      let '(a, b, c, fa, fb, fc) :=
        if Rltb (Rabs (b_fc s)) (Rabs (b_fb s))
        then (b_b s, b_c s, b_b s, b_fb s, b_fc s, b_fb s)
        else (b_a s, b_b s, b_c s, b_fa s, b_fb s, b_fc s) in
      let tol := (2 * FEPS * Rabs b + tolerance / 2)%R in
      if Rleb (Rabs ((c - b) / 2)) tol || Reqb fb 0 then ret (Ok (b, st))
      else
        let step_new := brent_step step_old tol a b c fa fb fc in
        let b' := (b + step_new)%R in
        fb' <~ ask f b' ;;
        let st := mkSS (n_function st + 1) (n_iterations st) in
        let '(c, fc) :=
          if (Rltb 0 fb' && Rltb 0 fc) || (Rltb fb' 0 && Rltb fc 0) then (b, fb) else (c, fc) in
        brent_loop f tolerance n' (mkB b b' c fb fb' fc st)
  end.

(** root_finder_brent.rs:43-189 *)
Definition brent_root (max_iterations : nat) (tolerance : R) (f : callback) (xa xb : R) : M (R * sstats) :=
  if Rltb (Rabs (xa - xb)) (10 * FEPS) then ret (Err "xa must be different from xb")
  else
    fa <~ ask f xa ;;
    fb <~ ask f xb ;;
    if Rleb (- FEPS) (fa * fb) then ret (Err "xa and xb must bracket the root and f(xa) × f(xb) < 0")
    else brent_loop f tolerance max_iterations (mkB xa xb xa fa fb fa (mkSS 2 0)).

(* ------------------------------------------------------------------ *)
(** * MinBracketing::basic, min_bracketing.rs:129-184 *)

(** bracket.rs:13-31 *)
Record bracket := mkBracket { br_a : R; br_b : R; br_fa : R; br_fb : R; br_xo : R; br_fxo : R }.

(** min_bracketing.rs:156-183 *)
Fixpoint bracket_loop (f : callback) (expansion : R) (n : nat) (a fa xo fxo step : R) (st : sstats)
  : M (bracket * sstats) :=
  match n with
  | 0 => ret (Err "try_bracket_min failed to converge")
  | S n' =>
      let st := mkSS (n_function st + 1) (n_iterations st + 1) in
      let b := (xo + step)%R in
      fb <~ ask f b ;;
      if Rltb fxo fb then
        ret (Ok (if Rltb b a then mkBracket b a fb fa xo fxo else mkBracket a b fa fb xo fxo, st))
      else bracket_loop f expansion n' xo fxo b fb (step * expansion)%R st
  end.

(** min_bracketing.rs:42-47, 129-150 *)
Definition bracket_basic (n_iteration_max : nat) (initial_step expansion : R) (f : callback) (x_guess : R)
  : M (bracket * sstats) :=
  if n_iteration_max <? 2 then ret (Err "n_iteration_max must be ≥ 2")
  else
    let a := x_guess in
    let xo := (x_guess + initial_step)%R in
    fa <~ ask f a ;;
    fxo <~ ask f xo ;;
    if Rltb fa fxo then bracket_loop f expansion n_iteration_max xo fxo a fa (- initial_step)%R (mkSS 2 0)
    else bracket_loop f expansion n_iteration_max a fa xo fxo initial_step (mkSS 2 0).

(* ------------------------------------------------------------------ *)
(** * MinSolver::brent, min_solver.rs:127-280 *)

(** min_solver.rs:6 *)
Definition GSR : R := 0.38196601125010515179541316563436188227969082019424%R.

Record mstate := mkM { m_a : R; m_b : R; m_x : R; m_v : R; m_w : R; m_fx : R; m_fv : R; m_fw : R; m_st : sstats }.

(** min_solver.rs:202-232: the step taken from x *)
Definition min_step (tol a b x v w fx fv fw : R) : R :=
  let mid := ((a + b) / 2)%R in
  let tmp := (if Rltb x mid then b - x else a - x)%R in
  let step_new := (GSR * tmp)%R in
  let step_new :=
    if Rleb tol (Rabs (x - w)) then
      let t := ((x - w) * (fx - fv))%R in
      let q := ((x - v) * (fx - fw))%R in
      let p := ((x - v) * q - (x - w) * t)%R in
      let q := (2 * (q - t))%R in
      let '(p, q) := if Rltb 0 q then (- p, q)%R else (p, - q)%R in
      if Rltb (Rabs p) (Rabs (step_new * q)) && Rltb (q * (a - x + 2 * tol)) p
         && Rltb p (q * (b - x - 2 * tol))
      then (p / q)%R else step_new
    else step_new in
  if Rltb (Rabs step_new) tol then (if Rltb 0 step_new then tol else - tol)%R else step_new.

(** min_solver.rs:188-279 *)
Fixpoint min_loop (f : callback) (tolerance : R) (n : nat) (s : mstate) : M (R * sstats) :=
  match n with
  | 0 => ret (Err "brent solver failed to converge")
  | S n' =>
      let st := mkSS (n_function (m_st s)) (n_iterations (m_st s) + 1) in
      let '(mkM a b x v w fx fv fw _) := s in
      let tol := (SQRT_EPS * Rabs x + tolerance / 3)%R in
      if Rleb (Rabs (x - (a + b) / 2) + (b - a) / 2) (2 * tol) then ret (Ok (x, st))
      else
        let t := (x + min_step tol a b x v w fx fv fw)%R in
        ft <~ ask f t ;;
        let st := mkSS (n_function st + 1) (n_iterations st) in
        if Rleb ft fx then
          let '(a, b) := if Rltb t x then (a, x) else (x, b) in
          min_loop f tolerance n' (mkM a b t w x ft fw fx st)
        else
          let '(a, b) := if Rltb t x then (t, b) else (a, t) in
          if Rleb ft fw || Reqb w x then min_loop f tolerance n' (mkM a b x w t fx fw ft st)
          else if Rleb ft fv || Reqb v x || Reqb v w then min_loop f tolerance n' (mkM a b x t w fx ft fw st)
          else min_loop f tolerance n' (mkM a b x v w fx fv fw st)
  end.

(** min_solver.rs:38-46, 127-184 *)
Definition brent_min (n_iteration_max : nat) (tolerance : R) (f : callback) (xa xb : R) : M (R * sstats) :=
  if Rltb (Rabs (xa - xb)) (10 * FEPS) then ret (Err "xa must be different from xb")
  else if n_iteration_max <? 2 then ret (Err "n_iteration_max must be ≥ 2")
  else if Rltb tolerance (10 * FEPS) then ret (Err "the tolerance must be ≥ 10.0 * f64::EPSILON")
  else
    let '(a, b) := if Rltb xa xb then (xa, xb) else (xb, xa) in
    let v := (a + GSR * (b - a))%R in
    fv <~ ask f v ;;
    min_loop f tolerance n_iteration_max (mkM a b v v v fv fv fv (mkSS 1 0)).

(* ------------------------------------------------------------------ *)
(** * LineSearcher::search, line_search.rs:82-272 *)

(** line_search.rs:82-109 *)
Record searcher := mkLS { ls_c1 : R; ls_rho : R; ls_min_alpha : R; ls_max_iterations : nat }.

(** line_search.rs:113-120 with the constants of lines 25-40 *)
Definition searcher_new : searcher := mkLS 1e-4%R 0.5%R 1e-20%R 20.

(** line_search.rs:123-140 *)
Definition ls_validate (s : searcher) : res unit :=
  if Rleb (ls_c1 s) 0 || Rleb 1 (ls_c1 s) then Err "c1 must satisfy 0 < c1 < 1"
  else if Rleb (ls_rho s) 0 || Rleb 1 (ls_rho s) then Err "rho must satisfy 0 < rho < 1"
  else if Rleb (ls_min_alpha s) 0 then Err "min_alpha must be > 0"
  else if Rleb 1 (ls_min_alpha s) then Err "min_alpha must be < 1"
  else if ls_max_iterations s =? 0 then Err "max_iterations must be ≥ 1"
  else Ok tt.

(** line_search.rs:191-214; [n] iterations left, [i] done *)
Fixpoint ls_loop (s : searcher) (f : callback) (x p fx slope : R) (n i : nat) (alpha : R) : M (R * nat) :=
  match n with
  | 0 => ret (Err "line search failed to converge")
  | S n' =>
      let target := (fx + ls_c1 s * alpha * slope)%R in
      f_new <~ ask f (x + alpha * p)%R ;;
      if Rleb f_new target then ret (Ok (alpha, i + 1))
      else
        let alpha := (alpha * ls_rho s)%R in
        if Rltb alpha (ls_min_alpha s) then ret (Err "step size too small")
        else ls_loop s f x p fx slope n' (i + 1) alpha
  end.

(** line_search.rs:169-215 *)
Definition ls_search (s : searcher) (x p fx slope : R) (f : callback) : M (R * nat) :=
  _ <~ ret (ls_validate s) ;;
  if Rleb 0 slope then ret (Err "direction must be a descent direction (slope < 0)")
  else ls_loop s f x p fx slope (ls_max_iterations s) 0 1%R.

(** line_search.rs:248-254 *)
Definition line_search (x p fx slope : R) (f : callback) : M R :=
  r <~ ls_search searcher_new x p fx slope f ;; ret (Ok (fst r)).

(** line_search.rs:259-272 *)
Definition line_search_with_stats (x p fx slope : R) (f : callback) : M (R * nat) :=
  ls_search searcher_new x p fx slope f.

(* ------------------------------------------------------------------ *)
(** * RootFinder::refine, root_finder.rs:258-313 *)

Record refiner := mkRef { rf_tol_dx : R; rf_tol_fx : R; rf_max : nat; rf_h_osd : R; rf_h_cen : R }.

(** root_finder.rs:282-291 *)
Definition refine_dfdx (c : refiner) (xa xb : R) (f : callback) (x : R) : M R :=
  if Rleb (x - rf_h_cen c) xa then
    f1 <~ ask f (x + rf_h_osd c)%R ;; f0 <~ ask f x ;; ret (Ok ((f1 - f0) / rf_h_osd c)%R)
  else if Rleb xb (x + rf_h_cen c) then
    f1 <~ ask f x ;; f0 <~ ask f (x - rf_h_osd c)%R ;; ret (Ok ((f1 - f0) / rf_h_osd c)%R)
  else
    f1 <~ ask f (x + rf_h_cen c)%R ;; f0 <~ ask f (x - rf_h_cen c)%R ;;
    ret (Ok ((f1 - f0) / (rf_h_cen c * 2))%R).

(** root_finder.rs:271-310: the refined value of one root *)
Fixpoint refine_one (c : refiner) (xa xb : R) (f : callback) (n : nat) (x : R) : M R :=
  match n with
  | 0 => ret (Err "Newton's method did not converge")
  | S n' =>
      fx <~ ask f x ;;
      if Rltb (Rabs fx) (rf_tol_fx c) then ret (Ok x)
      else
        dfdx <~ refine_dfdx c xa xb f x ;;
        if Rltb (Rabs dfdx) (rf_tol_fx c) then ret (Ok x)
        else
          fx' <~ ask f x ;;
          let dx := (- fx' / dfdx)%R in
          if Rltb (Rabs dx) (rf_tol_dx c) then ret (Ok x)
          else refine_one c xa xb f n' (x + dx)%R
  end.

Fixpoint refine_all (c : refiner) (xa xb : R) (f : callback) (roots : list R) : M (list R) :=
  match roots with
  | [] => ret (Ok [])
  | r :: t =>
      r' <~ refine_one c xa xb f (rf_max c) r ;;
      t' <~ refine_all c xa xb f t ;;
      ret (Ok (r' :: t'))
  end.

(** root_finder.rs:258-313 (on an error the roots already refined stay
    overwritten in the caller's slice; that is not modelled) *)
Definition refine (c : refiner) (roots : list R) (xa xb : R) (f : callback) : M (list R) :=
  match roots with
  | [] => ret (Err "at least one root is required")
  | _ => refine_all c xa xb f roots
  end.
