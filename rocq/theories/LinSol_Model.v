(** Model of russell_sparse/src/{lin_sol_params,lin_solver,solver_umfpack,complex_solver_umfpack,solver_mumps,
    complex_solver_mumps}.rs and of the C layers c_code/interface_{umfpack,mumps}.c between them and the libraries.

    Simplifications:
    - numbers are an arbitrary type [V] (f64 or Complex64), so that the real and the complex solvers are one model;
    - the routines of UMFPACK and MUMPS are oracles: what they return is a function of what they are given; the
      factors they keep are handles of an arbitrary type, a null pointer is [None];
    - INFO(1) and INFOG(1) of MUMPS are the same number (there is one process);
    - messages of library codes are an arbitrary function of the code; times, verbosity, effective
      ordering/scaling/strategy, condition estimates and the error-analysis array are left out;
    - `c-code failed to allocate` cannot happen. *)
From Verif Require Import Base Sparse_Model.
Local Open Scope string_scope.
Local Open Scope nat_scope.

(** enums.rs `enum Ordering` *)
Inductive ordering := OAmd | OAmf | OAuto | OBest | OBtfColamd | OCholmod | OColamd | OMetis | ONo | OPord | OQamd | OScotch.
(** enums.rs `enum Scaling` *)
Inductive scaling := ScAuto | ScColumn | ScDiagonal | ScMax | ScNo | ScRowCol | ScRowColIter | ScRowColRig | ScSum.

(** lin_sol_params.rs:5-82; the options of cuDSS and `verbose` are left out *)
Record params := mkParams {
  p_ordering : ordering;
  p_scaling : scaling;
  p_positive_definite : bool;
  p_compute_determinant : bool;
  p_compute_error_estimates : bool;
  p_compute_condition_numbers : bool;
  p_pct_inc_workspace : nat;
  p_max_work_memory : nat;
  p_num_threads : nat;
  p_override_nt : bool;
  p_enforce_unsym : bool
}.

(** lin_sol_params.rs:86-106 *)
Definition params_new : params :=
  mkParams OAuto ScAuto false false false false 100 0 0 false false.

(** solver_umfpack.rs:457-472 *)
Definition umfpack_ordering (o : ordering) : Z :=
  (match o with
   | OCholmod | OColamd => 0
   | OMetis => 3
   | OBest => 4
   | ONo => 5
   | OAmd | OAmf | OAuto | OBtfColamd | OPord | OQamd | OScotch => 1
   end)%Z.

(** solver_umfpack.rs:475-487 *)
Definition umfpack_scaling (s : scaling) : Z :=
  (match s with
   | ScNo => 0
   | ScMax => 2
   | ScAuto | ScColumn | ScDiagonal | ScRowCol | ScRowColIter | ScRowColRig | ScSum => 1
   end)%Z.

(** solver_mumps.rs:460-475 *)
Definition mumps_ordering (o : ordering) : Z :=
  (match o with
   | OAmd => 0
   | OAmf => 2
   | OScotch => 3
   | OPord => 4
   | OMetis => 5
   | OQamd => 6
   | OAuto | OBest | OBtfColamd | OCholmod | OColamd | ONo => 7
   end)%Z.

(** solver_mumps.rs:477-489 *)
Definition mumps_scaling (s : scaling) : Z :=
  (match s with
   | ScNo => 0
   | ScDiagonal => 1
   | ScColumn => 3
   | ScRowCol => 4
   | ScRowColIter => 7
   | ScRowColRig => 8
   | ScAuto | ScMax | ScSum => 77
   end)%Z.

(** constants.rs:8-15 *)
Definition ERROR_NEED_INITIALIZATION : Z := 500000%Z.
Definition ERROR_NEED_FACTORIZATION : Z := 600000%Z.
Definition ERROR_ALREADY_INITIALIZED : Z := 700000%Z.

(** constants.rs:20 `to_i32`: panics when the number is above i32::MAX *)
Definition fits_i32 (n : nat) : bool := (Z.of_nat n <=? 2147483647)%Z.

(* ------------------------------------------------------------------ *)
(** * UMFPACK *)

Section Umfpack.
Variable V : Type.
Variable zero : V.
Variable add : V -> V -> V.
(** the messages of solver_umfpack.rs:490-517 *)
Variable msg : Z -> string.
(** what `umfpack_di_symbolic` and `umfpack_di_numeric` keep behind their handles, and the pair of numbers
    (coefficient, exponent) which represents a determinant *)
Variables symb num det : Type.
(** the pair (0.0, 0.0) *)
Variable det_zero : det.

(** the entries of `control` which are set by the interface: strategy, ordering and scale *)
Record uctl := mkUctl { ctl_unsym : bool; ctl_ordering : Z; ctl_scale : Z }.

(** umfpack_di_symbolic(n, n, csc, &symbolic, control, info) : code and handle *)
Variable lib_symbolic : uctl -> Z -> csc V -> Z * option symb.
(** umfpack_di_numeric(csc, symbolic, &numeric, control, info) *)
Variable lib_numeric : uctl -> csc V -> option symb -> Z * option num.
(** umfpack_di_get_determinant(&coefficient, &exponent, numeric, info) *)
Variable lib_determinant : option num -> Z * det.
(** umfpack_di_solve(UMFPACK_A, csc, x, rhs, numeric, control, info): the code and what is in x afterwards *)
Variable lib_solve : uctl -> csc V -> option num -> list V -> list V -> Z * list V.

(** interface_umfpack.c:9-27 `struct InterfaceUMFPACK` *)
Record cumf := mkCumf {
  k_ctl : uctl;
  k_symbolic : option symb;
  k_numeric : option num;
  k_init : bool;
  k_fact : bool
}.

(** interface_umfpack.c:82-124 `solver_umfpack_initialize` *)
Definition c_umf_initialize (k : cumf) (ord sc : Z) (unsym : bool) (n : Z) (m : csc V) : cumf * Z :=
  if k_init k then (k, ERROR_ALREADY_INITIALIZED)
  else
    let ctl := mkUctl unsym ord sc in
    let '(code, sy) := lib_symbolic ctl n m in
    if (code =? 0)%Z then (mkCumf ctl sy (k_numeric k) true (k_fact k), 0%Z)
    else (mkCumf ctl sy (k_numeric k) (k_init k) (k_fact k), code).

(** interface_umfpack.c:141-200 `solver_umfpack_factorize` : the determinant is also returned *)
Definition c_umf_factorize (k : cumf) (d0 : det) (want_det : bool) (m : csc V) : cumf * det * Z :=
  if negb (k_init k) then (k, d0, ERROR_NEED_INITIALIZATION)
  else
    let '(code, nu) := lib_numeric (k_ctl k) m (k_symbolic k) in
    let '(code, d) := if want_det then lib_determinant nu else (code, det_zero) in
    (mkCumf (k_ctl k) (k_symbolic k) nu (k_init k) true, d, code).

(** interface_umfpack.c:212-243 `solver_umfpack_solve` *)
Definition c_umf_solve (k : cumf) (x rhs : list V) (m : csc V) : list V * Z :=
  if negb (k_fact k) then (x, ERROR_NEED_FACTORIZATION)
  else let '(code, x') := lib_solve (k_ctl k) m (k_numeric k) rhs x in (x', code).

(** solver_umfpack.rs:110-165 `struct SolverUMFPACK` *)
Record umf := mkUmf {
  u_c : cumf;
  u_csc : option (csc V);
  u_initialized : bool;
  u_factorized : bool;
  u_sym : sym;
  u_ndim : nat;
  u_nnz : nat;
  u_det : det
}.

(** solver_umfpack.rs:178-204 `new` and interface_umfpack.c:39-50 (the default control values are arbitrary) *)
Definition umf_new (ctl0 : uctl) : umf :=
  mkUmf (mkCumf ctl0 None None false false) None false false SymNo 0 0 det_zero.

(** solver_umfpack.rs:234-265: the checks and the conversion to CSC; the result is the CSC matrix to be used *)
Definition umf_convert (st : umf) (m : coo V) (p : option params) : umf * res (csc V) :=
  if u_initialized st then
    if negb (sym_eqb (c_sym m) (u_sym st)) then
      (st, Err "subsequent factorizations must use the same matrix (symmetric differs)")
    else if negb (c_nrow m =? u_ndim st) then
      (st, Err "subsequent factorizations must use the same matrix (ndim differs)")
    else if negb (c_nnz m =? u_nnz st) then
      (st, Err "subsequent factorizations must use the same matrix (nnz differs)")
    else match p with
    | Some _ => (st, Err "subsequent factorizations must not change LinSolParams")
    | None =>
        match u_csc st with
        | None => (st, Panic)
        | Some s =>
            match csc_update_from_coo V zero add s m with
            | Ok s' => (mkUmf (u_c st) (Some s') (u_initialized st) (u_factorized st) (u_sym st) (u_ndim st) (u_nnz st) (u_det st), Ok s')
            | Err e => (st, Err e)
            | Panic => (st, Panic)
            end
        end
    end
  else
    if negb (c_nrow m =? c_ncol m) then (st, Err "the matrix must be square")
    else if c_nnz m <? 1 then (st, Err "the COO matrix must have at least one non-zero value")
    else if triangular (c_sym m) then (st, Err "UMFPACK requires Sym::YesFull for symmetric matrices")
    else
      let with_csc o := mkUmf (u_c st) o (u_initialized st) (u_factorized st) (c_sym m) (c_nrow m) (c_nnz m) (u_det st) in
      match csc_from_coo V zero add m with
      | Ok s => (with_csc (Some s), Ok s)
      | Err e => (with_csc (u_csc st), Err e)
      | Panic => (with_csc (u_csc st), Panic)
      end.

(** solver_umfpack.rs:232-329 `factorize` *)
Definition umf_factorize (st : umf) (m : coo V) (p : option params) : umf * res unit :=
  match umf_convert st m p with
  | (st, Err e) => (st, Err e)
  | (st, Panic) => (st, Panic)
  | (st, Ok s) =>
      let par := match p with Some p => p | None => params_new end in
      if negb (fits_i32 (s_nrow s)) then (st, Panic)
      else
        (* 285-305: initialize, once *)
        let '(k, status) :=
          if u_initialized st then (u_c st, 0%Z)
          else c_umf_initialize (u_c st) (umfpack_ordering (p_ordering par)) (umfpack_scaling (p_scaling par))
                 (p_enforce_unsym par) (Z.of_nat (s_nrow s)) s in
        if negb (status =? 0)%Z then
          (mkUmf k (u_csc st) (u_initialized st) (u_factorized st) (u_sym st) (u_ndim st) (u_nnz st) (u_det st), Err (msg status))
        else
          (* 307-324: factorize *)
          let '(k, d, status) := c_umf_factorize k (u_det st) (p_compute_determinant par) s in
          if negb (status =? 0)%Z then
            (mkUmf k (u_csc st) true (u_factorized st) (u_sym st) (u_ndim st) (u_nnz st) d, Err (msg status))
          else (mkUmf k (u_csc st) true true (u_sym st) (u_ndim st) (u_nnz st) d, Ok tt)
  end.

(** solver_umfpack.rs:351-389 `solve`: what is in x afterwards, and the result *)
Definition umf_solve (st : umf) (x rhs : list V) : list V * res unit :=
  if negb (u_factorized st) then (x, Err "the function factorize must be called before solve")
  else match u_csc st with
  | None => (x, Panic)
  | Some s =>
      if negb (length x =? u_ndim st) then (x, Err "the dimension of the vector of unknown values x is incorrect")
      else if negb (length rhs =? u_ndim st) then (x, Err "the dimension of the right-hand side vector is incorrect")
      else
        let '(x', status) := c_umf_solve (u_c st) x rhs s in
        if negb (status =? 0)%Z then (x', Err (msg status)) else (x', Ok tt)
  end.

(** lin_solver.rs:212-224 `compute` with Genie::Umfpack (the solver which is returned, the new x) *)
Definition umf_compute (ctl0 : uctl) (x : list V) (m : coo V) (rhs : list V) (p : option params) : list V * res umf :=
  match umf_factorize (umf_new ctl0) m p with
  | (st, Ok _) =>
      match umf_solve st x rhs with
      | (x', Ok _) => (x', Ok st)
      | (x', Err e) => (x', Err e)
      | (x', Panic) => (x', Panic)
      end
  | (_, Err e) => (x, Err e)
  | (_, Panic) => (x, Panic)
  end.

End Umfpack.

(* ------------------------------------------------------------------ *)
(** * MUMPS *)

Section Mumps.
Variable V : Type.
(** the messages of solver_mumps.rs:492-575 *)
Variable msg : Z -> string.
(** what MUMPS keeps of the analysis, of the factorization; the representation of a determinant *)
Variables ana fac det : Type.
Variable det_zero : det.
(** is the program linked with MKL (auxiliary_blas.rs:22)? *)
Variable mkl : bool.

(** ICNTL 7, 8, 14, 16, 23 as set by the interface *)
Record mctl := mkMctl { mc_ordering : Z; mc_scaling : Z; mc_pct : Z; mc_threads : Z; mc_mem : Z }.

(** a coordinate matrix as MUMPS is given it: `sym`, `n`, and the arrays irn, jcn (one-based) and a, cut at `nz` *)
Record mumat := mkMumat { mm_sym : Z; mm_n : nat; mm_irn : list nat; mm_jcn : list nat; mm_a : list V }.

(** dmumps_c, JOB=-1 then JOB=1 *)
Variable lib_analyze : mctl -> mumat -> Z * ana.
(** dmumps_c, JOB=2; the second argument tells if ICNTL(33) = 1 *)
Variable lib_factor : mctl -> bool -> ana -> mumat -> Z * fac * det.
(** dmumps_c, JOB=3: the code and what is in `rhs` afterwards *)
Variable lib_msolve : fac -> list V -> Z * list V.

(** The objects of the program: the COO matrix with number [a], or nothing when it has been dropped.
    The heap buffer of `values` is allocated once with the matrix (coo_matrix.rs:173-196) and lives as long as it. *)
Definition memory := nat -> option (coo V).

(** interface_mumps.c:16-28 `struct InterfaceMUMPS`: of `data`, the fields n, nz, sym, irn, jcn and the pointer [k_a] *)
Record cmum := mkCmum {
  j_ctl : mctl;
  j_sym : Z;
  j_n : nat;
  j_nz : nat;
  j_irn : list nat;
  j_jcn : list nat;
  j_a : nat;
  j_ana : option ana;
  j_fac : option fac;
  j_init : bool;
  j_fact : bool
}.

(** what MUMPS reads when it follows its pointers; nothing when the buffer has been freed *)
Definition mum_read (mem : memory) (j : cmum) : option mumat :=
  match mem (j_a j) with
  | Some c => Some (mkMumat (j_sym j) (j_n j) (j_irn j) (j_jcn j) (firstn (j_nz j) (c_vv c)))
  | None => None
  end.

(** interface_mumps.c:95-173 `solver_mumps_initialize`: [a] is the object whose `values` pointer is passed *)
Definition c_mum_initialize (j : cmum) (mem : memory) (ctl : mctl) (general_symmetric positive_definite : bool)
    (n nz : nat) (irn jcn : list nat) (a : nat) : cmum * res Z :=
  if j_init j then (j, Ok ERROR_ALREADY_INITIALIZED)
  else
    let sym := if general_symmetric then 2%Z else if positive_definite then 1%Z else 0%Z in
    let j' := mkCmum ctl sym n nz irn jcn a (j_ana j) (j_fac j) (j_init j) (j_fact j) in
    match mum_read mem j' with
    | None => (j', Panic)
    | Some mm =>
        let '(code, an) := lib_analyze ctl mm in
        if (code =? 0)%Z then
          (mkCmum ctl sym n nz irn jcn a (Some an) (j_fac j) true (j_fact j), Ok 0%Z)
        else (j', Ok code)
    end.

(** interface_mumps.c:185-233 `solver_mumps_factorize`. Reading freed memory (undefined behaviour) is [Panic]. *)
Definition c_mum_factorize (j : cmum) (mem : memory) (d0 : det) (want_det : bool) : cmum * det * res Z :=
  if negb (j_init j) then (j, d0, Ok ERROR_NEED_INITIALIZATION)
  else
    let ctl := if want_det then mkMctl (mc_ordering (j_ctl j)) 0%Z (mc_pct (j_ctl j)) (mc_threads (j_ctl j)) (mc_mem (j_ctl j))
               else j_ctl j in
    match mum_read mem j, j_ana j with
    | Some mm, Some an =>
        let '(code, f, d) := lib_factor ctl want_det an mm in
        (mkCmum ctl (j_sym j) (j_n j) (j_nz j) (j_irn j) (j_jcn j) (j_a j) (j_ana j) (Some f) (j_init j) true,
         (if want_det then d else det_zero), Ok code)
    | _, _ => (j, d0, Panic)
    end.

(** interface_mumps.c:243-278 `solver_mumps_solve`; the error analysis (ICNTL(11) > 0) reads the matrix again *)
Definition c_mum_solve (j : cmum) (mem : memory) (rhs : list V) (error_analysis : Z) : list V * res Z :=
  if negb (j_fact j) then (rhs, Ok ERROR_NEED_FACTORIZATION)
  else
    match (if (0 <? error_analysis)%Z then mum_read mem j else Some (mkMumat 0%Z 0 [] [] [])), j_fac j with
    | Some _, Some f => let '(code, x) := lib_msolve f rhs in (x, Ok code)
    | _, _ => (rhs, Panic)
    end.

(** solver_mumps.rs:76-139 `struct SolverMUMPS` *)
Record mum := mkMum {
  q_c : cmum;
  q_initialized : bool;
  q_factorized : bool;
  q_sym : sym;
  q_ndim : nat;
  q_nnz : nat;
  q_ii : list nat;
  q_jj : list nat;
  q_eao : Z;
  q_det : det
}.

(** solver_mumps.rs:152-180 `new` *)
Definition mum_new : mum :=
  mkMum (mkCmum (mkMctl 0 0 0 0 0)%Z 0%Z 0 0 [] [] 0 None None false false) false false SymNo 0 0 [] [] 0%Z det_zero.

(** solver_mumps.rs:211-244: the checks and the one-based indices *)
Definition mum_check (st : mum) (m : coo V) (p : option params) : mum * res unit :=
  if q_initialized st then
    if negb (sym_eqb (c_sym m) (q_sym st)) then
      (st, Err "subsequent factorizations must use the same matrix (symmetric differs)")
    else if negb (c_nrow m =? q_ndim st) then
      (st, Err "subsequent factorizations must use the same matrix (ndim differs)")
    else if negb (c_nnz m =? q_nnz st) then
      (st, Err "subsequent factorizations must use the same matrix (nnz differs)")
    else match p with
    | Some _ => (st, Err "subsequent factorizations must not change LinSolParams")
    | None => (st, Ok tt)
    end
  else
    if negb (c_nrow m =? c_ncol m) then (st, Err "the COO matrix must be square")
    else if c_nnz m <? 1 then (st, Err "the COO matrix must have at least one non-zero value")
    else if sym_eqb (c_sym m) SymYesFull || sym_eqb (c_sym m) SymYesUpper then
      (st, Err "MUMPS requires Sym::YesLower for symmetric matrices")
    else
      (mkMum (q_c st) (q_initialized st) (q_factorized st) (c_sym m) (c_nrow m) (c_nnz m)
         (map (fun i => i + 1) (firstn (c_nnz m) (c_ii m))) (map (fun i => i + 1) (firstn (c_nnz m) (c_jj m)))
         (q_eao st) (q_det st), Ok tt).

(** solver_mumps.rs:209-328 `factorize(&mat, params)` where mat is the object [a] *)
Definition mum_factorize (mem : memory) (st : mum) (a : nat) (p : option params) : mum * res unit :=
  match mem a with
  | None => (st, Panic)  (* there is no reference to a dropped object: not reachable in Rust *)
  | Some m =>
  match mum_check st m p with
  | (st, Err e) => (st, Err e)
  | (st, Panic) => (st, Panic)
  | (st, Ok _) =>
      let par := match p with Some p => p | None => params_new end in
      (* 249-256 *)
      let eao := if p_compute_condition_numbers par then 1%Z else if p_compute_error_estimates par then 2%Z else 0%Z in
      let st := mkMum (q_c st) (q_initialized st) (q_factorized st) (q_sym st) (q_ndim st) (q_nnz st) (q_ii st) (q_jj st) eao (q_det st) in
      let own_threads := mkl || negb (p_num_threads par =? 0) || p_override_nt par in
      (* 261-281: the conversions to i32 *)
      if negb (fits_i32 (p_pct_inc_workspace par) && fits_i32 (p_max_work_memory par) &&
               (if own_threads then fits_i32 (p_num_threads par) else true) &&
               fits_i32 (c_nrow m) && fits_i32 (c_nnz m))
      then (st, Panic)
      else
        let ctl := mkMctl (mumps_ordering (p_ordering par)) (mumps_scaling (p_scaling par))
                     (Z.of_nat (p_pct_inc_workspace par)) (if own_threads then Z.of_nat (p_num_threads par) else 1%Z)
                     (Z.of_nat (p_max_work_memory par)) in
        (* 283-306: initialize, once *)
        let '(j, status) :=
          if q_initialized st then (q_c st, Ok 0%Z)
          else c_mum_initialize (q_c st) mem ctl (sym_eqb (c_sym m) SymYesLower) (p_positive_definite par)
                 (c_nrow m) (c_nnz m) (q_ii st) (q_jj st) a in
        let with_c j b f d := mkMum j b f (q_sym st) (q_ndim st) (q_nnz st) (q_ii st) (q_jj st) eao d in
        match status with
        | Panic => (with_c j (q_initialized st) (q_factorized st) (q_det st), Panic)
        | Err e => (with_c j (q_initialized st) (q_factorized st) (q_det st), Err e)
        | Ok status =>
            if negb (status =? 0)%Z then (with_c j (q_initialized st) (q_factorized st) (q_det st), Err (msg status))
            else
              (* 308-323: factorize *)
              let '(j, d, status) := c_mum_factorize j mem (q_det st) (p_compute_determinant par) in
              match status with
              | Panic => (with_c j true (q_factorized st) d, Panic)
              | Err e => (with_c j true (q_factorized st) d, Err e)
              | Ok status =>
                  if negb (status =? 0)%Z then (with_c j true (q_factorized st) d, Err (msg status))
                  else (with_c j true true d, Ok tt)
              end
        end
  end
  end.

(** solver_mumps.rs:350-384 `solve` *)
Definition mum_solve (mem : memory) (st : mum) (x rhs : list V) : list V * res unit :=
  if negb (q_factorized st) then (x, Err "the function factorize must be called before solve")
  else if negb (length x =? q_ndim st) then (x, Err "the dimension of the vector of unknown values x is incorrect")
  else if negb (length rhs =? q_ndim st) then (x, Err "the dimension of the right-hand side vector is incorrect")
  else
    match c_mum_solve (q_c st) mem rhs (q_eao st) with
    | (x', Ok status) => if negb (status =? 0)%Z then (x', Err (msg status)) else (x', Ok tt)
    | (x', Err e) => (x', Err e)
    | (x', Panic) => (x', Panic)
    end.

End Mumps.

Arguments k_ctl {symb num}. Arguments k_symbolic {symb num}. Arguments k_numeric {symb num}.
Arguments k_init {symb num}. Arguments k_fact {symb num}. Arguments mkCumf {symb num}.
Arguments u_c {V symb num det}. Arguments u_csc {V symb num det}. Arguments u_initialized {V symb num det}.
Arguments u_factorized {V symb num det}. Arguments u_sym {V symb num det}. Arguments u_ndim {V symb num det}.
Arguments u_nnz {V symb num det}. Arguments u_det {V symb num det}. Arguments mkUmf {V symb num det}.
Arguments mkMumat {V}. Arguments mm_sym {V}. Arguments mm_n {V}. Arguments mm_irn {V}. Arguments mm_jcn {V}. Arguments mm_a {V}.
Arguments j_ctl {ana fac}. Arguments j_sym {ana fac}. Arguments j_n {ana fac}. Arguments j_nz {ana fac}.
Arguments j_irn {ana fac}. Arguments j_jcn {ana fac}. Arguments j_a {ana fac}. Arguments j_ana {ana fac}.
Arguments j_fac {ana fac}. Arguments j_init {ana fac}. Arguments j_fact {ana fac}. Arguments mkCmum {ana fac}.
Arguments q_c {ana fac det}. Arguments q_initialized {ana fac det}. Arguments q_factorized {ana fac det}.
Arguments q_sym {ana fac det}. Arguments q_ndim {ana fac det}. Arguments q_nnz {ana fac det}. Arguments q_ii {ana fac det}.
Arguments q_jj {ana fac det}. Arguments q_eao {ana fac det}. Arguments q_det {ana fac det}. Arguments mkMum {ana fac det}.
