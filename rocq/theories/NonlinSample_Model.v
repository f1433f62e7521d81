(** Model of russell_nonlin: System::new and System::check_ggu of system.rs and
    the sample problems of samples.rs; and of russell_lab matrix/mat_approx_eq.rs.

    `f64` is read as a real number. In the samples a vector is a function from
    positions to the reals, meaningful below the dimension, and a Jacobian callback
    is the list of its `put(..).unwrap()` calls on a COO matrix of Sparse_Model.v
    (the callbacks of this crate do not reset the matrix) together with what it
    leaves in the vector Gl. `powi` and `powf` with a literal exponent are integer
    powers. bspline_problem_1 is left out. *)
From Coq Require Import Reals List.
From Verif Require Import Base RBase Dense_Model Sparse_Model OdeSample_Model NumDeriv_Model.
Import ListNotations.
Open Scope R_scope.

(** ** system.rs *)

(** system.rs:60-100 `struct System` without the callbacks *)
Record nsys := mkNsys { ny_ndim : nat; ny_nnz : nat; ny_sym : sym }.
(** system.rs:148-184 `new` *)
Definition nsys_new (ndim : nat) (nnz_ggu : option nat) (s : sym) : res nsys :=
  if (ndim <? 1)%nat then Err "ndim must be at least 1"
  else
    nnz <- (match nnz_ggu with
            | Some nnz => if (nnz <? 1)%nat then Err "nnz_ggu must be at least 1" else Ok nnz
            | None => Ok (if triangular s then ((ndim + ndim * ndim) / 2)%nat else (ndim * ndim)%nat)
            end) ;;
    Ok (mkNsys ndim nnz s).

(** mat_approx_eq.rs:49-78 without the tests for NaN and infinity *)
Definition mat_approx_eq (a b : dmat R) (tol : R) : res unit :=
  if negb (d_nrow a =? d_nrow b)%nat then Panic
  else if negb (d_ncol a =? d_ncol b)%nat then Panic
  else for_range 0 (d_nrow a) (fun i s => for_range 0 (d_ncol a) (fun j s =>
         x <- d_get a i j ;;
         y <- d_get b i j ;;
         if Rltb tol (Rabs (x - y)) then Panic else Ok s) s) tt.

Section Check.
Variable A : Type.
(** calc_gg(gg, l, u, args) *)
Variable calc_gg : list R -> R -> list R -> A -> list R * A * res unit.
(** calc_jac(ggu, ggl, l, u, args) *)
Variable calc_jac : coo R -> list R -> R -> list R -> A -> coo R * list R * A * res unit.

(** system.rs:258-271 `check_ggu`; also gives the final args *)
Definition check_ggu (y : nsys) (l_at : R) (u_at : list R) (args : A) (tol : R) : A * res unit :=
  match coo_new R 0 (ny_ndim y) (ny_ndim y) (ny_nnz y) (ny_sym y) with
  | Ok ggu0 =>
      let '(ggu, ggl, a, r) := calc_jac ggu0 (repeat 0 (ny_ndim y)) l_at u_at args in
      match r with
      | Ok _ =>
          let '(a', rn) := num_jacobian A calc_gg (ny_ndim y) 0 u_at 1 a in
          match rn with
          | Ok num => (a', ana <- coo_as_dense R 0 Rplus ggu ;; mat_approx_eq ana num tol)
          | _ => (a', Panic)
          end
      | _ => (a, Panic)
      end
  | _ => (args, Panic)
  end.
End Check.

(** ** samples.rs *)

(** the system with its callbacks: Gl gets the old content of the vector *)
Record nsample := mkNsample {
  ns_sys : res nsys;
  ns_gg : R -> vec -> vec;            (* lambda, u *)
  ns_ggu : R -> vec -> puts;          (* lambda, u *)
  ns_ggl : vec -> R -> vec -> vec }.  (* old ggl, lambda, u *)
(** ggl[k] = v *)
Definition set_component (old : vec) (k : nat) (v : R) : vec := fun i => if (i =? k)%nat then v else old i.

(** the closures of a sample as they are called by check_ggu: calc_gg overwrites gg,
    calc_jac makes its puts and writes ggl *)
Definition gg_callback (p : nsample) (nd : nat) (gg : list R) (l : R) (u : list R) (args : unit) : list R * unit * res unit :=
  (map (ns_gg p l (vl u)) (seq 0 nd), args, Ok tt).
Definition jac_callback (p : nsample) (nd : nat) (ggu : coo R) (ggl : list R) (l : R) (u : list R) (args : unit) : coo R * list R * unit * res unit :=
  match coo_puts ggu (ns_ggu p l (vl u)) with
  | (ggu', Ok _) => (ggu', map (ns_ggl p (vl ggl) l (vl u)) (seq 0 nd), args, Ok tt)
  | (ggu', _) => (ggu', ggl, args, Panic)
  end.

(** samples.rs:28-55 *)
Definition simple_linear_problem (s : sym) : nsample :=
  mkNsample (nsys_new 1 (Some 1%nat) s)
    (fun l u => vl [u 0%nat - l])
    (fun l u => [(0%nat, 0%nat, 1)])
    (fun old l u => set_component old 0 (-1)).
Definition simple_linear_state : vec * R := (vl [0], 0).

(** samples.rs:65-96 *)
Definition cubic_poly_1 : nsample :=
  mkNsample (nsys_new 1 (Some 1%nat) SymNo)
    (fun l u => vl [u 0%nat * u 0%nat * u 0%nat - 2 * u 0%nat - 2])
    (fun l u => [(0%nat, 0%nat, 3 * u 0%nat * u 0%nat - 2)])
    (fun old l u => old).
Definition cubic_poly_1_ok : vec := vl [1].
Definition cubic_poly_1_oscillation : vec := vl [0].
Definition cubic_poly_1_indeterminate : vec := vl [sqrt (2 / 3)].
Definition cubic_poly_1_reference : vec := vl [1.76929235423863].

(** samples.rs:106-135 *)
Definition cubic_poly_2 : nsample :=
  mkNsample (nsys_new 1 (Some 1%nat) SymNo)
    (fun l u => vl [(u 0%nat - 1) ^ 3 + 0.512])
    (fun l u => [(0%nat, 0%nat, 3 * (u 0%nat - 1) ^ 2)])
    (fun old l u => old).
Definition cubic_poly_2_trial : vec := vl [5].
Definition cubic_poly_2_reference : vec := vl [0.2].

(** samples.rs:147-180 *)
Definition two_eq_ref : nsample :=
  mkNsample (nsys_new 2 (Some 4%nat) SymNo)
    (fun l u => vl [u 0%nat ^ 3 + u 1%nat - 1; - u 0%nat + u 1%nat ^ 3 + 1])
    (fun l u => [(0%nat, 0%nat, 3 * u 0%nat * u 0%nat); (0%nat, 1%nat, 1); (1%nat, 0%nat, -1); (1%nat, 1%nat, 3 * u 1%nat * u 1%nat)])
    (fun old l u => old).
Definition two_eq_ref_trial : vec := vl [0.5; 0.5].
Definition two_eq_ref_reference : vec := vl [1; 0].

(** samples.rs:187-221 *)
Definition two_eq_nr_prob_1 : nsample :=
  mkNsample (nsys_new 2 (Some 4%nat) SymNo)
    (fun l u => vl [u 0%nat * u 0%nat + u 1%nat * u 1%nat; u 0%nat * u 0%nat - u 1%nat * u 1%nat])
    (fun l u => [(0%nat, 0%nat, 2 * u 0%nat); (0%nat, 1%nat, 2 * u 1%nat); (1%nat, 0%nat, 2 * u 0%nat); (1%nat, 1%nat, -2 * u 1%nat)])
    (fun old l u => old).
Definition two_eq_nr_prob_1_trial : vec := vl [0; 1e-5].
Definition two_eq_nr_prob_1_reference : vec := vl [0; 0].

(** samples.rs:226-263 *)
Definition two_eq_nr_prob_2 : nsample :=
  mkNsample (nsys_new 2 (Some 4%nat) SymNo)
    (fun l u => vl [u 0%nat ^ 2 + u 1%nat ^ 2 - 2; (u 0%nat - 1) ^ 2 + (u 1%nat - 1) ^ 2 - 2])
    (fun l u => [(0%nat, 0%nat, 2 * u 0%nat); (0%nat, 1%nat, 2 * u 1%nat); (1%nat, 0%nat, 2 * (u 0%nat - 1)); (1%nat, 1%nat, 2 * (u 1%nat - 1))])
    (fun old l u => old).
Definition two_eq_nr_prob_2_ok1 : vec := vl [-0.1; 0.1].
Definition two_eq_nr_prob_2_ok2 : vec := vl [0.1; -0.1].
Definition two_eq_nr_prob_2_bad : vec := vl [0; 0].
Definition two_eq_nr_prob_2_ref1 : vec := vl [(1 - sqrt 3) / 2; (1 + sqrt 3) / 2].
Definition two_eq_nr_prob_2_ref2 : vec := vl [(1 + sqrt 3) / 2; (1 - sqrt 3) / 2].

(** samples.rs:273-304 *)
Definition one_eq_with_fold_point : nsample :=
  mkNsample (nsys_new 1 (Some 1%nat) SymNo)
    (fun l u => vl [u 0%nat - l * exp (u 0%nat)])
    (fun l u => [(0%nat, 0%nat, 1 - l * exp (u 0%nat))])
    (fun old l u => set_component old 0 (- exp (u 0%nat))).
Definition fold_point_state : vec * R := (vl [0], 0).
Definition fold_point_lambda (u : R) : R := exp (- u) * u.

(** samples.rs:309-343; `powf` with a positive base *)
Definition singular_initial_state (alpha : R) : nsample :=
  mkNsample (nsys_new 1 (Some 1%nat) SymNo)
    (fun l u => vl [Rpower (u 0%nat) alpha - l])
    (fun l u => [(0%nat, 0%nat, alpha * Rpower (u 0%nat) (alpha - 1))])
    (fun old l u => set_component old 0 (-1)).
Definition singular_state (perturbation : R) : vec * R := (vl [perturbation], 0).
Definition singular_lambda (alpha u : R) : R := Rpower u alpha.

(** samples.rs:408-436 *)
Definition circle_ul (radius : R) : nsample :=
  mkNsample (nsys_new 1 (Some 1%nat) SymNo)
    (fun l u => vl [u 0%nat * u 0%nat + l * l - radius * radius])
    (fun l u => [(0%nat, 0%nat, 2 * u 0%nat)])
    (fun old l u => set_component old 0 (2 * l)).
Definition circle_state (radius : R) : vec * R := (vl [radius / sqrt 2], radius / sqrt 2).
