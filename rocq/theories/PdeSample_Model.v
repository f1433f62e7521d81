(** Model of russell_pde/src/problem_samples.rs: boundary-value problems with known solutions.
    `f64` is read as a real number; the boundary conditions are built with the operations of
    Bcs_Model.v, the maps with those of TfSample_Model.v. *)
From Coq Require Import Reals Ascii String List.
From Verif Require Import Base RBase Grid_Model Bcs_Model Transfinite_Model TfSample_Model.
Import ListNotations.
Open Scope R_scope.
Open Scope res_scope.

Definition fn1 := R -> R.
Definition fn2 := R -> R -> R.
Definition no1 : fn1 := fun _ => 0.
Definition no2 : fn2 := fun _ _ => 0.

(** the tuple returned by the 1D problems; [p1_alpha] is 0 for the problems that do not return it,
    [p1_flow] is [None] for those that return no flow *)
Record prob1 := mkP1 { p1_xmin : R; p1_xmax : R; p1_kx : R; p1_alpha : R;
  p1_ebcs : ebc1 fn1; p1_nbcs : nbc fn1; p1_source : fn1; p1_analytical : fn1; p1_flow : option fn1 }.

Definition e1_new := ebc1_new fn1 no1.
Definition e1_hom := ebc1_set_homogeneous fn1 no1.
Definition e1_set := ebc1_set fn1.
Definition n1_new := nbc1_new fn1 no1.
Definition n1_set := nbc_set fn1.

(** problem_samples.rs:38-58 *)
Definition d1_problem_01 : res prob1 :=
  let kx := 1 in
  ebcs <- e1_hom e1_new ;;
  Ok (mkP1 0 1 kx 0 ebcs n1_new (fun x => x) (fun x => (x - x ^ 3) / 6)
        (Some (fun x => (- kx) * (1 - 3 * x * x) / 6))).

(** problem_samples.rs:120-147 *)
Definition d1_problem_02 : res prob1 :=
  let lx := 0.05 in let kx := 0.01571 in let alpha := 2 * PI in
  let phi_a := 320 in let phi_inf := 20 in
  ebcs <- e1_set e1_new Xmin (fun _ => phi_a) ;;
  nbcs <- n1_set n1_new Xmax (fun _ => 0) ;;
  Ok (mkP1 0 lx kx alpha ebcs nbcs (fun _ => alpha * phi_inf)
        (fun x => let m := sqrt (alpha / kx) in phi_inf + (phi_a - phi_inf) * cosh (m * (lx - x)) / cosh (m * lx)) None).

(** problem_samples.rs:202-228 *)
Definition d1_problem_03 : res prob1 :=
  let lx := 1 in let kx := 1 in let alpha := 1 in let phi_a := 2 in
  ebcs <- e1_set e1_new Xmin (fun _ => phi_a) ;;
  nbcs <- n1_set n1_new Xmax (fun _ => -3) ;;
  Ok (mkP1 0 lx kx alpha ebcs nbcs (fun x => x * x) (fun x => let d := cosh 1 in sinh x / d + x * x + 2) None).

(** problem_samples.rs:266-284 *)
Definition d1_problem_04a : res prob1 :=
  ebcs <- e1_hom e1_new ;;
  Ok (mkP1 (-1) 1 (-1) 0 ebcs n1_new (fun x => exp (4 * x)) (fun x => (exp (4 * x) - sinh 4 * x - cosh 4) / 16) None).

(** problem_samples.rs:325-345 *)
Definition d1_problem_04b : res prob1 :=
  ebcs <- e1_set e1_new Xmax (fun _ => 0) ;;
  nbcs <- n1_set n1_new Xmin (fun _ => 0) ;;
  Ok (mkP1 (-1) 1 (-1) 0 ebcs nbcs (fun x => exp (4 * x))
        (fun x => (exp (4 * x) - 4 * exp (-4) * (x - 1) - exp 4) / 16) None).

(** problem_samples.rs:393-425; the coefficient beta^2 of the equation is not part of the tuple *)
Definition d1_problem_05 (beta ll g0 phi_ll : R) : res prob1 :=
  let kx := -1 in
  ebcs <- e1_set e1_new Xmax (fun _ => phi_ll) ;;
  nbcs <- n1_set n1_new Xmin (fun _ => - g0) ;;
  Ok (mkP1 0 ll kx 0 ebcs nbcs (fun _ => 0)
        (fun x => let c1 := g0 / beta in let c2 := (phi_ll - c1 * sin (beta * ll)) / cos (beta * ll) in
                  c1 * sin (beta * x) + c2 * cos (beta * x))
        (Some (fun x => (- kx) * ((g0 * cos (beta * (ll - x)) - beta * phi_ll * sin (beta * x)) / cos (beta * ll))))).

(** the tuple returned by the 2D problems on a rectangle *)
Record prob2 := mkP2 { p2_xmin : R; p2_xmax : R; p2_ymin : R; p2_ymax : R; p2_kx : R; p2_ky : R;
  p2_ebcs : ebc2 fn2; p2_nbcs : nbc fn2; p2_source : fn2; p2_analytical : fn2; p2_flow : option (R -> R -> R * R) }.

Definition e2_new := ebc2_new fn2 no2.
Definition e2_hom := ebc2_set_homogeneous fn2 no2.
Definition e2_set := ebc2_set fn2.
Definition n2_new := nbc2_new fn2 no2.
Definition n2_set := nbc_set fn2.

(** problem_samples.rs:469-505 *)
Definition d2_problem_01 (case_a : bool) : res prob2 :=
  let kx := 1 in let ky := 1 in
  ' bcs <- (if case_a then ebcs <- e2_hom e2_new ;; Ok (ebcs, n2_new)
            else
              nbcs <- n2_set n2_new Xmin (fun _ y => - kx * exp (- y) * (y - 1) * y) ;;
              nbcs <- n2_set nbcs Ymin (fun x _ => - ky * exp x * (x - 1) * x) ;;
              ebcs <- e2_set e2_new Xmax (fun _ _ => 0) ;;
              ebcs <- e2_set ebcs Ymax (fun _ _ => 0) ;;
              Ok (ebcs, nbcs)) ;;
  let '(ebcs, nbcs) := bcs in
  Ok (mkP2 0 1 0 1 kx ky ebcs nbcs
        (fun x y => 2 * x * (1 - y) * (y - 2 * x + x * y + 2) * exp (x - y))
        (fun x y => x * y * (x - 1) * (y - 1) * exp (x - y))
        (Some (fun x y => ((- kx) * exp (x - y) * (x * x + x - 1) * (y - 1) * y,
                           (- ky) * exp (x - y) * (y * y - 3 * y + 1) * (1 - x) * x)))).

(** problem_samples.rs:547-570 *)
Definition d2_problem_02 : res prob2 :=
  ebcs <- e2_set e2_new Xmin (fun _ _ => 0) ;;
  ebcs <- e2_set ebcs Xmax (fun _ _ => 0) ;;
  ebcs <- e2_set ebcs Ymin (fun _ _ => 0) ;;
  ebcs <- e2_set ebcs Ymax (fun x _ => sin (PI * x)) ;;
  Ok (mkP2 0 1 0 1 (-1) (-1) ebcs n2_new (fun x y => - PI * PI * y * sin (PI * x)) (fun x y => y * sin (PI * x)) None).

(** `Option::unwrap` *)
Definition unwrap_opt {A} (o : option A) : res A := match o with Some a => Ok a | None => Panic end.
(** problem_samples.rs:618-685 *)
Definition d2_problem_03 (k alpha : R) (bc_combo : string) : res prob2 :=
  _ <- assert_ (existsb (String.eqb bc_combo) ["NNDD"; "NDND"; "DNND"; "DDNN"; "DDDD"]%string) ;;
  key_right <- unwrap_opt (String.get 0 bc_combo) ;;
  key_top <- unwrap_opt (String.get 1 bc_combo) ;;
  key_left <- unwrap_opt (String.get 2 bc_combo) ;;
  key_bottom <- unwrap_opt (String.get 3 bc_combo) ;;
  let is_d c := Ascii.eqb c "D"%char in
  let ebcs := e2_new in let nbcs := n2_new in
  ' bcs <- (if is_d key_left then e <- e2_set ebcs Xmin (fun _ _ => 0) ;; Ok (e, nbcs)
            else n <- n2_set nbcs Xmin (fun _ y => - k * (-2) * PI * cos (2 * PI * y)) ;; Ok (ebcs, n)) ;;
  let '(ebcs, nbcs) := bcs in
  ' bcs <- (if is_d key_right then e <- e2_set ebcs Xmax (fun _ _ => 0) ;; Ok (e, nbcs)
            else n <- n2_set nbcs Xmax (fun _ y => - k * 2 * PI * cos (2 * PI * y)) ;; Ok (ebcs, n)) ;;
  let '(ebcs, nbcs) := bcs in
  ' bcs <- (if is_d key_bottom then e <- e2_set ebcs Ymin (fun x _ => sin (2 * PI * x)) ;; Ok (e, nbcs)
            else n <- n2_set nbcs Ymin (fun _ _ => 0) ;; Ok (ebcs, n)) ;;
  let '(ebcs, nbcs) := bcs in
  ' bcs <- (if is_d key_top then e <- e2_set ebcs Ymax (fun x _ => sin (2 * PI * x)) ;; Ok (e, nbcs)
            else n <- n2_set nbcs Ymax (fun _ _ => 0) ;; Ok (ebcs, n)) ;;
  let '(ebcs, nbcs) := bcs in
  Ok (mkP2 0 1 0 1 k k ebcs nbcs
        (fun x y => (8 * k * PI * PI + alpha) * sin (2 * PI * x) * cos (2 * PI * y))
        (fun x y => sin (2 * PI * x) * cos (2 * PI * y))
        (Some (fun x y => ((- k) * 2 * PI * cos (2 * PI * x) * cos (2 * PI * y),
                           (- k) * 2 * PI * sin (2 * PI * x) * sin (2 * PI * y) * (-1))))).

(** the terms of the loop `for k in (1..ana_nsum).step_by(2)` *)
Definition odd_below (n : nat) : list nat := map (fun i => 2 * i + 1)%nat (seq 0 (n / 2)).
(** problem_samples.rs:729-765; `k * k * k` is computed without overflow *)
Definition d2_04_term (k : nat) (x y sum : R) : R :=
  let k3 := INR (k * k * k) in
  let kp := INR k * PI in
  let ak := kp * (1 + x) / 2 in
  let bk := kp * (1 + y) / 2 in
  let ck := kp * (1 - y) / 2 in
  let sak := sin ak in
  if Reqb sak 0 then sum else sum + sak * (sinh bk + sinh ck) / (k3 * sinh kp).
Definition d2_problem_04 (ana_nsum : nat) : res prob2 :=
  ebcs <- e2_hom e2_new ;;
  Ok (mkP2 (-1) 1 (-1) 1 1 1 ebcs n2_new (fun _ _ => 1)
        (fun x y => let sum := fold_left (fun sum k => d2_04_term k x y sum) (odd_below ana_nsum) 0 in
                    (1 - x * x) / 2 - 16 * sum / (PI * PI * PI)) None).

(** problem_samples.rs:800-832 *)
Definition d2_problem_05 : res prob2 :=
  ebcs <- e2_set e2_new Xmin (fun _ _ => 0) ;;
  ebcs <- e2_set ebcs Xmax (fun _ _ => 2) ;;
  nbcs <- n2_set n2_new Ymin (fun _ _ => 0) ;;
  nbcs <- n2_set nbcs Ymax (fun _ _ => 0) ;;
  Ok (mkP2 (-1) 1 (-1) 1 1 1 ebcs nbcs (fun x _ => -6 * x) (fun x _ => 1 + x ^ 3) None).

(** problem_samples.rs:867-899 *)
Definition d2_problem_06 : res prob2 :=
  ebcs <- e2_set e2_new Xmin (fun _ y => tanh (2 + y)) ;;
  ebcs <- e2_set ebcs Ymin (fun x _ => - tanh x) ;;
  ebcs <- e2_set ebcs Ymax (fun x _ => tanh (2 - x)) ;;
  nbcs <- n2_set n2_new Xmax (fun _ y => 1 / (cosh y) ^ 2) ;;
  Ok (mkP2 (-1) 1 (-1) 1 1 1 ebcs nbcs (fun x y => 4 * tanh (1 - x + y) / (cosh (1 - x + y)) ^ 2)
        (fun x y => tanh (1 - x + y)) None).

(** problem_samples.rs:940-972 *)
Definition d2_problem_07 : res prob2 :=
  ebcs <- e2_set e2_new Xmin (fun _ y => sin (2 * PI * y)) ;;
  ebcs <- e2_set ebcs Xmax (fun _ y => sin (2 * PI * y)) ;;
  ebcs <- e2_set ebcs Ymin (fun _ _ => 0) ;;
  ebcs <- e2_set ebcs Ymax (fun _ _ => 0) ;;
  Ok (mkP2 (-1) 1 (-1) 1 (-1) (-1) ebcs n2_new (fun x y => -8 * PI * PI * cos (2 * PI * x) * sin (2 * PI * y))
        (fun x y => cos (2 * PI * x) * sin (2 * PI * y)) None).

(** `f64::atan2(y, x)`; the sign of a zero is ignored *)
Definition atan2 (y x : R) : R :=
  if Rltb 0 x then atan (y / x)
  else if Rltb x 0 then (if Rleb 0 y then atan (y / x) + PI else atan (y / x) - PI)
  else if Rltb 0 y then PI / 2 else if Rltb y 0 then - (PI / 2) else 0.

(** the tuple returned by the problems on a mapped domain *)
Record prob_map := mkPM { pm_map : tf2; pm_k : R; pm_ebcs : ebc2 fn2; pm_nbcs : nbc fn2; pm_source : fn2; pm_analytical : fn2 }.

(** problem_samples.rs:1016-1069 *)
Definition d2_problem_08 (ra rb : R) (lozenge : bool) : res prob_map :=
  map <- (if lozenge then quarter_perforated_lozenge_2d ra rb else quarter_ring_2d ra rb) ;;
  ebcs <- e2_set e2_new Xmin (fun x y => let theta := atan2 y x in let r := sqrt (x * x + y * y) in ln r * sin (4 * theta)) ;;
  ebcs <- e2_set ebcs Xmax (fun x y => let theta := atan2 y x in let r := sqrt (x * x + y * y) in ln r * sin (4 * theta)) ;;
  ebcs <- e2_set ebcs Ymin (fun _ _ => 0) ;;
  ebcs <- e2_set ebcs Ymax (fun _ _ => 0) ;;
  Ok (mkPM map (-1) ebcs n2_new
        (fun x y => let r := sqrt (x * x + y * y) in let theta := atan2 y x in -16 * ln r * sin (4 * theta) / (r * r))
        (fun x y => let r := sqrt (x * x + y * y) in let theta := atan2 y x in ln r * sin (4 * theta))).

(** problem_samples.rs:1116-1157 *)
Definition d2_problem_09 (ra rb v_inf : R) : res prob_map :=
  map <- half_ring_2d ra rb ;;
  ebcs <- e2_set e2_new Xmax (fun x y => let theta := atan2 y x in let r := sqrt (x * x + y * y) in (r + ra * ra / r) * v_inf * cos theta) ;;
  nbcs <- n2_set n2_new Xmin (fun _ _ => 0) ;;
  nbcs <- n2_set nbcs Ymin (fun _ _ => 0) ;;
  nbcs <- n2_set nbcs Ymax (fun _ _ => 0) ;;
  Ok (mkPM map (-1) ebcs nbcs (fun _ _ => 0)
        (fun x y => let r := sqrt (x * x + y * y) in let theta := atan2 y x in (r + ra * ra / r) * v_inf * cos theta)).
