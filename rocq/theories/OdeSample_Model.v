(** Model of russell_ode: the configuration part of system.rs and the sample
    problems of samples.rs.

    `f64` is read as a real number. A vector is a function from positions to the
    reals, meaningful below the dimension. A Jacobian or mass callback is the list
    of its `put(..).unwrap()` calls, made on a COO matrix of Sparse_Model.v; the
    Jacobian callbacks call `reset` first. The `Arc`s around the callbacks, the
    `args` of the problems without arguments and the reference solutions given as
    decimal numbers are not modelled. *)
From Coq Require Import Reals List.
From Verif Require Import Base RBase Dense_Model Sparse_Model Fdm_Model.
Import ListNotations.
Open Scope R_scope.

(** ** system.rs *)

(** system.rs:64-92 `struct System` without the callbacks *)
Record sys := mkSys {
  sy_ndim : nat; sy_jac_nnz : nat; sy_mass_nnz : nat;
  sy_sym_jac : option sym; sy_sym_mass : option sym; sy_symmetric : sym }.
(** system.rs:155-170 `new` *)
Definition sys_new (ndim : nat) : sys := mkSys ndim (ndim * ndim) 0 None None SymNo.
(** system.rs:209-217, 244-252: the number of non-zeros *)
Definition nnz_or_default (ndim : nat) (nnz : option nat) (s : sym) : nat :=
  match nnz with
  | Some value => value
  | None => if triangular s then ((ndim + ndim * ndim) / 2)%nat else (ndim * ndim)%nat
  end.
(** system.rs:198-222 `set_jacobian`: the new state and the `Result` *)
Definition sys_set_jacobian (y : sys) (nnz : option nat) (s : sym) : sys * res unit :=
  let set := (mkSys (sy_ndim y) (nnz_or_default (sy_ndim y) nnz s) (sy_mass_nnz y) (Some s) (sy_sym_mass y) s, Ok tt) in
  match sy_sym_mass y with
  | Some m => if negb (sym_eqb s m) then (y, Err "the Jacobian matrix must have the same symmetric type as the mass matrix") else set
  | None => set
  end.
(** system.rs:233-257 `set_mass` *)
Definition sys_set_mass (y : sys) (nnz : option nat) (s : sym) : sys * res unit :=
  let set := (mkSys (sy_ndim y) (sy_jac_nnz y) (nnz_or_default (sy_ndim y) nnz s) (sy_sym_jac y) (Some s) s, Ok tt) in
  match sy_sym_jac y with
  | Some m => if negb (sym_eqb s m) then (y, Err "the mass matrix must have the same symmetric type as the Jacobian matrix") else set
  | None => set
  end.
(** `.unwrap()` on a method that changes its object *)
Definition unwrap_mut {A : Type} (x : A * res unit) : res A := match x with (a, Ok _) => Ok a | _ => Panic end.

(** ** samples.rs *)
Notation vec := (nat -> R).
Notation puts := (list (nat * nat * R)).
Definition vl (l : list R) : vec := fun i => nth i l 0.
(** the functions and values a sample returns *)
Record sample := mkSample {
  sa_sys : res sys;
  sa_f : R -> vec -> vec;            (* f(x, y) *)
  sa_jac : R -> R -> vec -> puts;    (* alpha, x, y *)
  sa_mass : option puts;
  sa_x0 : R; sa_y0 : vec;
  sa_sol : option (R -> vec) }.
(** a Jacobian callback at work on a matrix *)
Definition run_jac (l : puts) (jj : coo R) : res (coo R) := unwrap_mut (coo_puts (coo_reset jj) l).
(** a mass callback at work on a matrix *)
Definition run_mass (l : puts) (mm : coo R) : res (coo R) := unwrap_mut (coo_puts mm l).
Definition with_jac (ndim nnz : nat) (s : sym) : res sys := unwrap_mut (sys_set_jacobian (sys_new ndim) (Some nnz) s).

(** samples.rs:44-84 *)
Definition simple_equation_constant : sample :=
  mkSample (with_jac 1 1 SymNo)
    (fun x y => vl [1])
    (fun alpha x y => [(0%nat, 0%nat, 0 * alpha)])
    None 0 (vl [0]) (Some (fun x => vl [x])).

(** russell_sparse enums.rs `Genie`, 355-365 `get_sym` *)
Inductive genie := Cudss | Mumps | Umfpack.
Definition get_sym (g : genie) (symmetric : bool) : sym :=
  if symmetric then match g with Cudss => SymYesLower | Mumps => SymYesLower | Umfpack => SymYesFull end else SymNo.

(** samples.rs:152-222 *)
Definition simple_system_with_mass_matrix (symmetric : bool) (g : genie) : sample :=
  let s := get_sym g symmetric in
  let triangular := triangular s in
  mkSample
    (y <- with_jac 3 (if triangular then 3 else 4)%nat s ;; unwrap_mut (sys_set_mass y (Some (if triangular then 4 else 5)%nat) s))
    (fun x y => vl [- y 0%nat + y 1%nat; y 0%nat + y 1%nat; 1 / (1 + x)])
    (fun alpha x y => [(0%nat, 0%nat, alpha * (-1))] ++ (if negb triangular then [(0%nat, 1%nat, alpha * 1)] else []) ++
       [(1%nat, 0%nat, alpha * 1); (1%nat, 1%nat, alpha * 1)])%list
    (Some ([(0%nat, 0%nat, 1)] ++ (if negb triangular then [(0%nat, 1%nat, 1)] else []) ++ [(1%nat, 0%nat, 1); (1%nat, 1%nat, -1); (2%nat, 2%nat, 1)])%list)
    0 (vl [1; 0; 0]) (Some (fun x => vl [cos x; - sin x; ln (1 + x)])).

(** samples.rs:263-306 *)
Definition brusselator_ode : sample :=
  mkSample (with_jac 2 4 SymNo)
    (fun x y => vl [1 - 4 * y 0%nat + y 0%nat * y 0%nat * y 1%nat; 3 * y 0%nat - y 0%nat * y 0%nat * y 1%nat])
    (fun alpha x y => [(0%nat, 0%nat, alpha * (-4 + 2 * y 0%nat * y 1%nat)); (0%nat, 1%nat, alpha * (y 0%nat * y 0%nat));
       (1%nat, 0%nat, alpha * (3 - 2 * y 0%nat * y 1%nat)); (1%nat, 1%nat, alpha * (- y 0%nat * y 0%nat))])
    None 0 (vl [3 / 2; 3]) None.

(** samples.rs:664-743 *)
Definition MU : R := 0.012277471.
Definition MD : R := 1 - MU.
Definition arenstorf : sample :=
  mkSample (with_jac 4 8 SymNo)
    (fun x y =>
       let t0 := (y 0%nat + MU) * (y 0%nat + MU) + y 1%nat * y 1%nat in
       let t1 := (y 0%nat - MD) * (y 0%nat - MD) + y 1%nat * y 1%nat in
       let d0 := t0 * sqrt t0 in
       let d1 := t1 * sqrt t1 in
       vl [y 2%nat; y 3%nat;
           y 0%nat + 2 * y 3%nat - MD * (y 0%nat + MU) / d0 - MU * (y 0%nat - MD) / d1;
           y 1%nat - 2 * y 2%nat - MD * y 1%nat / d0 - MU * y 1%nat / d1])
    (fun alpha x y =>
       let t0 := (y 0%nat + MU) * (y 0%nat + MU) + y 1%nat * y 1%nat in
       let t1 := (y 0%nat - MD) * (y 0%nat - MD) + y 1%nat * y 1%nat in
       let s0 := sqrt t0 in
       let s1 := sqrt t1 in
       let d0 := t0 * s0 in
       let d1 := t1 * s1 in
       let dd0 := d0 * d0 in
       let dd1 := d1 * d1 in
       let a := y 0%nat + MU in
       let b := y 0%nat - MD in
       let c := - MD / d0 - MU / d1 in
       let dj00 := 3 * a * s0 in
       let dj01 := 3 * y 1%nat * s0 in
       let dj10 := 3 * b * s1 in
       let dj11 := 3 * y 1%nat * s1 in
       [(0%nat, 2%nat, 1 * alpha); (1%nat, 3%nat, 1 * alpha);
        (2%nat, 0%nat, (1 + a * dj00 * MD / dd0 + b * dj10 * MU / dd1 + c) * alpha);
        (2%nat, 1%nat, (a * dj01 * MD / dd0 + b * dj11 * MU / dd1) * alpha);
        (2%nat, 3%nat, 2 * alpha);
        (3%nat, 0%nat, (dj00 * y 1%nat * MD / dd0 + dj10 * y 1%nat * MU / dd1) * alpha);
        (3%nat, 1%nat, (1 + dj01 * y 1%nat * MD / dd0 + dj11 * y 1%nat * MU / dd1 + c) * alpha);
        (3%nat, 2%nat, -2 * alpha)])
    None 0 (vl [0.994; 0; 0; -2.00158510637908252240537862224]) None.

(** samples.rs:781-824 *)
Definition hw_L : R := -50.
Definition hairer_wanner_eq1 : sample :=
  mkSample (with_jac 1 1 SymNo)
    (fun x y => vl [hw_L * (y 0%nat - cos x)])
    (fun alpha x y => [(0%nat, 0%nat, alpha * hw_L)])
    None 0 (vl [0])
    (Some (fun x => vl [- hw_L * (sin x - hw_L * cos x + hw_L * exp (hw_L * x)) / (hw_L * hw_L + 1)])).

(** samples.rs:855-892 *)
Definition robertson : sample :=
  mkSample (with_jac 3 7 SymNo)
    (fun x y => vl [-0.04 * y 0%nat + 1.0e4 * y 1%nat * y 2%nat;
                    0.04 * y 0%nat - 1.0e4 * y 1%nat * y 2%nat - 3.0e7 * y 1%nat * y 1%nat;
                    3.0e7 * y 1%nat * y 1%nat])
    (fun alpha x y => [(0%nat, 0%nat, -0.04 * alpha); (0%nat, 1%nat, 1.0e4 * y 2%nat * alpha); (0%nat, 2%nat, 1.0e4 * y 1%nat * alpha);
       (1%nat, 0%nat, 0.04 * alpha); (1%nat, 1%nat, (-1.0e4 * y 2%nat - 6.0e7 * y 1%nat) * alpha);
       (1%nat, 2%nat, (-1.0e4 * y 1%nat) * alpha); (2%nat, 1%nat, 6.0e7 * y 1%nat * alpha)])
    None 0 (vl [1; 0; 0]) None.

(** samples.rs:931-974 (the end of the range x1 is left out) *)
Definition van_der_pol (epsilon : R) (stationary : bool) : sample :=
  let eps := if stationary then 1 else epsilon in
  mkSample (with_jac 2 3 SymNo)
    (fun x y => vl [y 1%nat; ((1 - y 0%nat * y 0%nat) * y 1%nat - y 0%nat) / eps])
    (fun alpha x y => [(0%nat, 1%nat, 1 * alpha); (1%nat, 0%nat, alpha * (-2 * y 0%nat * y 1%nat - 1) / eps);
       (1%nat, 1%nat, alpha * (1 - y 0%nat * y 0%nat) / eps)])
    None 0 (if stationary then vl [2.00861986087484313650940188; 0] else vl [2; -0.6]) None.

(** samples.rs:1051-1126 *)
Definition am_ALPHA : R := 0.99.
Definition am_GAMMA : R := 1 - am_ALPHA.
Definition am_BETA : R := 1e-6.
Definition am_A : R := 0.4.
Definition am_OM : R := 200 * PI.
Definition am_UB : R := 6.
Definition am_UF : R := 0.026.
Definition am_R : R := 1000.
Definition am_S : R := 9000.
Definition am_C1 : R := 1e-6.
Definition am_C2 : R := 2e-6.
Definition am_C3 : R := 3e-6.
Definition amplifier1t : sample :=
  mkSample (y <- with_jac 5 9 SymNo ;; unwrap_mut (sys_set_mass y (Some 9%nat) SymNo))
    (fun x y =>
       let ue := am_A * sin (am_OM * x) in
       let g12 := am_BETA * (exp ((y 1%nat - y 2%nat) / am_UF) - 1) in
       vl [(y 0%nat - ue) / am_R; (2 * y 1%nat - am_UB) / am_S + am_GAMMA * g12; y 2%nat / am_S - g12;
           (y 3%nat - am_UB) / am_S + am_ALPHA * g12; y 4%nat / am_S])
    (fun aa x y =>
       let h12 := am_BETA * exp ((y 1%nat - y 2%nat) / am_UF) / am_UF in
       [(0%nat, 0%nat, aa * (1 / am_R)); (1%nat, 1%nat, aa * (2 / am_S + am_GAMMA * h12)); (1%nat, 2%nat, aa * (- am_GAMMA * h12));
        (2%nat, 1%nat, aa * (- h12)); (2%nat, 2%nat, aa * (1 / am_S + h12)); (3%nat, 1%nat, aa * (am_ALPHA * h12));
        (3%nat, 2%nat, aa * (- am_ALPHA * h12)); (3%nat, 3%nat, aa * (1 / am_S)); (4%nat, 4%nat, aa * (1 / am_S))])
    (Some [(0%nat, 0%nat, - am_C1); (0%nat, 1%nat, am_C1); (1%nat, 0%nat, am_C1); (1%nat, 1%nat, - am_C1); (2%nat, 2%nat, - am_C2);
           (3%nat, 3%nat, - am_C3); (3%nat, 4%nat, am_C3); (4%nat, 3%nat, am_C3); (4%nat, 4%nat, - am_C3)])
    0 (vl [0; am_UB / 2; am_UB / 2; am_UB; 0]) None.

(** samples.rs:1151-1191 *)
Definition kreyszig_eq6_page902 : sample :=
  mkSample (with_jac 1 1 SymNo)
    (fun x y => vl [x + y 0%nat])
    (fun alpha x y => [(0%nat, 0%nat, 1 * alpha)])
    None 0 (vl [0]) (Some (fun x => vl [exp x - x - 1])).

(** samples.rs:1227-1271 *)
Definition kreyszig_ex4_page920 : sample :=
  mkSample (with_jac 2 3 SymNo)
    (fun x y => vl [y 1%nat; -10 * y 0%nat - 11 * y 1%nat + 10 * x + 11])
    (fun alpha x y => [(0%nat, 1%nat, 1 * alpha); (1%nat, 0%nat, -10 * alpha); (1%nat, 1%nat, -11 * alpha)])
    None 0 (vl [2; -10])
    (Some (fun x => vl [exp (- x) + exp (-10 * x) + x; - exp (- x) - 10 * exp (-10 * x) + 1])).

(** ** the Brusselator as a system of ODEs, samples.rs:497-612

    The callbacks get the `Fdm2d` solver as their argument: its periodicity flags
    and its molecule. [coord m] are the coordinates of node [m]. *)
Section Brusselator.
Variables px py : bool.
Variable molecule : list R.
Variable coord : nat -> R * R.
(** fdm_2d.rs:900-907 `loop_over_molecule`: what it runs through *)
Definition bru_mol (npoint m : nat) : list (nat * R) := combine (nbrs2 px py npoint npoint m) molecule.
(** samples.rs:520-545 *)
Definition bru_f (npoint : nat) (second_book ignore_diffusion : bool) (t : R) (yy : vec) : vec := fun i =>
  let s := (npoint * npoint)%nat in
  if (i <? s)%nat then
    let m := i in
    let um := yy m in let vm := yy (s + m)%nat in let um2 := um * um in
    let f := 1 - 4.4 * um + um2 * vm in
    let f := if negb ignore_diffusion then fold_left (fun f '(k, amk) => f + amk * yy k) (bru_mol npoint m) f else f in
    if second_book then
      if Rleb 1.1 t then
        let dx := fst (coord m) - 0.3 in let dy := snd (coord m) - 0.6 in
        f + (if Rleb (dx * dx + dy * dy) 0.01 then 5 else 0)
      else f
    else f
  else
    let m := (i - s)%nat in
    let um := yy m in let vm := yy (s + m)%nat in let um2 := um * um in
    let f := 3.4 * um - um2 * vm in
    if negb ignore_diffusion then fold_left (fun f '(k, amk) => f + amk * yy (s + k)%nat) (bru_mol npoint m) f else f.
(** samples.rs:511-517 *)
Definition bru_jac_nnz (npoint : nat) (ignore_diffusion : bool) : nat :=
  let s := (npoint * npoint)%nat in
  if ignore_diffusion then (4 * s)%nat else (4 * s + 2 * s * 5)%nat.
(** samples.rs:549-571: the puts in order *)
Definition bru_puts (npoint : nat) (ignore_diffusion : bool) (aa : R) (yy : vec) : puts :=
  let s := (npoint * npoint)%nat in
  flat_map (fun m =>
    let um := yy m in let vm := yy (s + m)%nat in let um2 := um * um in
    ([(m, m, aa * (-4.4 + 2 * um * vm)); (m, (s + m)%nat, aa * um2); ((s + m)%nat, m, aa * (3.4 - 2 * um * vm)); ((s + m)%nat, (s + m)%nat, aa * (- um2))] ++
     (if negb ignore_diffusion then flat_map (fun '(n, amn) => [(m, n, aa * amn); ((s + m)%nat, (s + n)%nat, aa * amn)]) (bru_mol npoint m) else []))%list) (seq 0 s).
(** the callback: the puts and the final `assert_eq!(nnz_count, jac_nnz)` *)
Definition bru_jac (npoint : nat) (ignore_diffusion : bool) (aa : R) (yy : vec) (jj : coo R) : res (coo R) :=
  let l := bru_puts npoint ignore_diffusion aa yy in
  jj <- run_jac l jj ;;
  _ <- assert_ (length l =? bru_jac_nnz npoint ignore_diffusion)%nat ;;
  Ok jj.
Definition bru_sys (npoint : nat) (ignore_diffusion : bool) : res sys :=
  with_jac (2 * (npoint * npoint)) (bru_jac_nnz npoint ignore_diffusion) SymNo.
End Brusselator.
