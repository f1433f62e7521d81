(** C90: the sample problems of russell_nonlin have the documented equations,
    derivatives, solutions and trial points; System::check_ggu compares Gu with
    the numerical derivative of G, but at lambda = 0. *)
From Coq Require Import Reals List Lia Lra Psatz.
From Coquelicot Require Import Coquelicot.
From Verif Require Import Base RBase Dense_Model Dense_Proofs Sparse_Model Sparse_Spec Sparse_Ring Sparse_CooProofs Sparse_Ops Sparse_Thm OdeSample_Model OdeSample_Thm NumDeriv_Model NumDeriv_Proofs NumDeriv_Thm NonlinSample_Model.
Import ListNotations.
Open Scope R_scope.

(** ** specification *)

(** the system has dimension [nd], [nnz] entries and storage [s]; at (l, u) the
    Jacobian callback fills every new matrix of that kind and capacity with the
    partial derivatives of G, and a zero vector with its derivative by lambda *)
Definition derivatives (p : nsample) (nd nnz : nat) (s : sym) (l : R) (u : vec) : Prop :=
  ns_sys p = Ok (mkNsys nd nnz s) /\
  (exists D : nat -> nat -> R,
    (forall i j, (i < nd)%nat -> (j < nd)%nat -> is_derive (fun t : R => ns_gg p l (set_at u j t) i) (u j) (D i j)) /\
    fills nd nnz s (run_mass (ns_ggu p l u)) D) /\
  forall i, (i < nd)%nat -> is_derive (fun t : R => ns_gg p t u i) l (ns_ggl p (fun _ => 0) l u i).
(** [u] solves the equations with the parameter [l] *)
Definition root (p : nsample) (nd : nat) (l : R) (u : vec) : Prop := forall i, (i < nd)%nat -> ns_gg p l u i = 0.
(** the entry (i, j) of the Jacobian: the sum of its puts *)
Definition gu (p : nsample) (l : R) (u : vec) (i j : nat) : R := entry R 0 Rplus (ns_ggu p l u) i j.

Ltac partials D := split; [reflexivity|split; [exists D; split|]];
  [apply all_lt2; cbn -[Rmult Rplus Rdiv Rminus pow exp Rpower]; splits; try exact I; cbv [set_at vl nth Nat.eqb]; auto_derive; try exact I; try ring
  |apply puts_mass; [cbn; lia|cbn -[Rmult Rplus]; ranges|]; apply all_lt2; cbn -[Rmult Rplus Rdiv Rminus entry expand pow]; splits; try exact I; entries; ring
  |apply all_lt_ok; cbn -[Rmult Rplus Rdiv Rminus pow exp Rpower]; splits; try exact I; cbv [vl nth set_component Nat.eqb]; auto_derive; try exact I; try ring].

Theorem C90_simple_linear_problem s l u : derivatives (simple_linear_problem s) 1 1 s l u.
Proof. destruct s; partials (fun i j : nat => 1). Qed.
Theorem C90_cubic_poly_1 l u : derivatives cubic_poly_1 1 1 SymNo l u.
Proof. partials (fun i j : nat => 3 * u 0%nat * u 0%nat - 2). Qed.
Theorem C90_cubic_poly_2 l u : derivatives cubic_poly_2 1 1 SymNo l u.
Proof. partials (fun i j : nat => 3 * (u 0%nat - 1) ^ 2). Qed.
Definition m2 (a b c d : R) (i j : nat) : R := match i, j with O, O => a | O, _ => b | _, O => c | _, _ => d end.
Theorem C90_two_eq_ref l u : derivatives two_eq_ref 2 4 SymNo l u.
Proof. partials (m2 (3 * u 0%nat * u 0%nat) 1 (-1) (3 * u 1%nat * u 1%nat)). Qed.
Theorem C90_two_eq_nr_prob_1 l u : derivatives two_eq_nr_prob_1 2 4 SymNo l u.
Proof. partials (m2 (2 * u 0%nat) (2 * u 1%nat) (2 * u 0%nat) (- 2 * u 1%nat)). Qed.
Theorem C90_two_eq_nr_prob_2 l u : derivatives two_eq_nr_prob_2 2 4 SymNo l u.
Proof. partials (m2 (2 * u 0%nat) (2 * u 1%nat) (2 * (u 0%nat - 1)) (2 * (u 1%nat - 1))). Qed.
Theorem C90_one_eq_with_fold_point l u : derivatives one_eq_with_fold_point 1 1 SymNo l u.
Proof. partials (fun i j : nat => 1 - l * exp (u 0%nat)). Qed.
Theorem C90_circle_ul radius l u : derivatives (circle_ul radius) 1 1 SymNo l u.
Proof. partials (fun i j : nat => 2 * u 0%nat). Qed.
(** u^alpha is defined for u > 0 *)
Theorem C90_singular_initial_state alpha l u : 0 < u 0%nat -> derivatives (singular_initial_state alpha) 1 1 SymNo l u.
Proof.
  intros Hu. split; [reflexivity|split; [exists (fun i j : nat => alpha * Rpower (u 0%nat) (alpha - 1)); split|]].
  - apply all_lt2. cbn -[Rmult Rplus Rdiv Rminus Rpower]. splits; try exact I. cbv [set_at vl nth Nat.eqb].
    replace (alpha * Rpower (u 0%nat) (alpha - 1)) with (alpha * Rpower (u 0%nat) (alpha - 1) - 0) by ring.
    refine (is_derive_minus (K := R_AbsRing) (V := R_NormedModule) (fun t : R => Rpower t alpha) (fun _ : R => l) _ _ _ _ _); [|apply (is_derive_const (K := R_AbsRing) (V := R_NormedModule))].
    apply is_derive_Reals. now apply derivable_pt_lim_power.
  - apply puts_mass; [cbn; lia|cbn -[Rmult Rplus]; ranges|]; apply all_lt2; cbn -[Rmult Rplus Rdiv Rminus entry expand Rpower]; splits; try exact I; entries; ring.
  - apply all_lt_ok; cbn -[Rmult Rplus Rdiv Rminus Rpower]; splits; try exact I; cbv [vl nth set_component Nat.eqb]; auto_derive; try exact I; try ring.
Qed.

(** ** solutions and trial points *)
Ltac comp i := destruct i as [|[|i]]; [| |lia].
Lemma root1 p l u : root p 1 l u <-> ns_gg p l u 0%nat = 0.
Proof. split; [intros H; apply H; lia|]. intros H [|i] Hi; [exact H|lia]. Qed.
Lemma root2 p l u : root p 2 l u <-> ns_gg p l u 0%nat = 0 /\ ns_gg p l u 1%nat = 0.
Proof. split; [intros H; split; apply H; lia|]. intros [H0 H1] [|[|i]] Hi; [exact H0|exact H1|lia]. Qed.

Theorem C90_simple_linear_root s l u : (root (simple_linear_problem s) 1 l u <-> u 0%nat = l) /\
  root (simple_linear_problem s) 1 (snd simple_linear_state) (fst simple_linear_state).
Proof. rewrite !root1. cbn. lra. Qed.

(** Newton's step for one equation *)
Definition newton (p : nsample) (x : R) : R := x - ns_gg p 0 (vl [x]) 0%nat / gu p 0 (vl [x]) 0 0.
(** the only real solution is the reference, rounded to 14 decimals; from the point
    called oscillation Newton's method goes to -1 and comes back; at the point called
    indeterminate the slope is zero *)
Theorem C90_cubic_poly_1_points :
  (exists r, Rabs (r - cubic_poly_1_reference 0%nat) <= 5e-15 /\ forall l u, root cubic_poly_1 1 l u <-> u 0%nat = r) /\
  newton cubic_poly_1 (cubic_poly_1_oscillation 0%nat) = -1 /\
  newton cubic_poly_1 (-1) = cubic_poly_1_oscillation 0%nat /\
  (forall l, gu cubic_poly_1 l cubic_poly_1_indeterminate 0 0 = 0) /\
  (forall l, gu cubic_poly_1 l cubic_poly_1_ok 0 0 <> 0).
Proof.
  split.
  - assert (C : continuity (fun x : R => x * x * x - 2 * x - 2)) by reg.
    destruct (IVT _ 1.769292354238625 1.769292354238635 C) as (r & Hr & E); [lra|lra|lra|]. cbv beta in E.
    exists r. split; [apply Rabs_le_between; unfold cubic_poly_1_reference, vl; cbn [nth]; lra|]. intros l u. rewrite root1. cbn. split; [|intros ->; lra]. intros H.
    set (v := u 0%nat) in *. assert (P : (v - r) * (v * v + v * r + r * r - 2) = 0) by nra. apply Rmult_integral in P. destruct P as [P|P]; [lra|].
    exfalso. assert (Q : 3 <= r * r) by nra. pose proof (Rle_0_sqr (v + r / 2)) as Z. unfold Rsqr in Z. nra.
  - unfold newton, gu. unfold cubic_poly_1_oscillation, cubic_poly_1_indeterminate, cubic_poly_1_ok. cbn [ns_gg ns_ggu cubic_poly_1]. unfold vl. cbn [nth]. entries. splits; try lra; intros _; [|lra].
    pose proof (sqrt_sqrt (2 / 3) ltac:(lra)). nra.
Qed.
Theorem C90_cubic_poly_2_root l u : root cubic_poly_2 1 l u <-> u 0%nat = cubic_poly_2_reference 0%nat.
Proof.
  rewrite root1. unfold cubic_poly_2_reference, vl. cbn [nth ns_gg cubic_poly_2]. unfold vl. cbn [nth]. split; [|intros ->; lra]. intros H.
  set (v := u 0%nat) in *. assert (P : (v - 0.2) * ((v - 1) * (v - 1) - 0.8 * (v - 1) + 0.64) = 0) by nra. apply Rmult_integral in P. destruct P; [lra|]. pose proof (Rle_0_sqr (v - 1.4)) as Z. unfold Rsqr in Z. nra.
Qed.
Theorem C90_two_eq_ref_root l u : root two_eq_ref 2 l u <-> u 0%nat = two_eq_ref_reference 0%nat /\ u 1%nat = two_eq_ref_reference 1%nat.
Proof.
  rewrite root2. unfold two_eq_ref_reference, vl. cbn [nth ns_gg two_eq_ref]. unfold vl. cbn [nth]. set (a := u 0%nat). set (b := u 1%nat). split; [|intros [-> ->]; lra]. intros [H0 H1].
  assert (P : (a - 1) * (a * a + a + 1) = - b) by nra. assert (Q : a - 1 = b ^ 3) by lra. rewrite Q in P.
  assert (S : b * (b ^ 2 * (a * a + a + 1) + 1) = 0) by nra. apply Rmult_integral in S. destruct S as [S|S]; [rewrite S in Q; lra|].
  exfalso. assert (0 <= b ^ 2 * (a * a + a + 1)) by (apply Rmult_le_pos; nra). lra.
Qed.
Definition det2 (p : nsample) (l : R) (u : vec) : R := gu p l u 0 0 * gu p l u 1 1 - gu p l u 0 1 * gu p l u 1 0.
(** the Jacobian is singular at the solution, and already at the trial point *)
Theorem C90_two_eq_nr_prob_1_root l u : (root two_eq_nr_prob_1 2 l u <-> u 0%nat = two_eq_nr_prob_1_reference 0%nat /\ u 1%nat = two_eq_nr_prob_1_reference 1%nat) /\
  det2 two_eq_nr_prob_1 l two_eq_nr_prob_1_reference = 0 /\ det2 two_eq_nr_prob_1 l two_eq_nr_prob_1_trial = 0.
Proof.
  rewrite root2. unfold two_eq_nr_prob_1_reference, two_eq_nr_prob_1_trial, det2, gu. cbn [nth ns_gg ns_ggu two_eq_nr_prob_1]. unfold vl. cbn [nth]. entries. splits; try lra.
  set (a := u 0%nat). set (b := u 1%nat). split; [|intros [-> ->]; lra]. intros. split; nra.
Qed.
(** exactly the two reference solutions; the determinant is -4 u0 + 4 u1: zero at the
    bad point, not at the two good ones *)
Theorem C90_two_eq_nr_prob_2_roots l u :
  (root two_eq_nr_prob_2 2 l u <->
     (u 0%nat = two_eq_nr_prob_2_ref1 0%nat /\ u 1%nat = two_eq_nr_prob_2_ref1 1%nat) \/ (u 0%nat = two_eq_nr_prob_2_ref2 0%nat /\ u 1%nat = two_eq_nr_prob_2_ref2 1%nat)) /\
  det2 two_eq_nr_prob_2 l u = -4 * u 0%nat + 4 * u 1%nat /\
  det2 two_eq_nr_prob_2 l two_eq_nr_prob_2_bad = 0 /\ det2 two_eq_nr_prob_2 l two_eq_nr_prob_2_ok1 <> 0 /\ det2 two_eq_nr_prob_2 l two_eq_nr_prob_2_ok2 <> 0.
Proof.
  rewrite root2. unfold two_eq_nr_prob_2_ref1, two_eq_nr_prob_2_ref2, two_eq_nr_prob_2_bad, two_eq_nr_prob_2_ok1, two_eq_nr_prob_2_ok2, det2, gu. cbn [nth ns_gg ns_ggu two_eq_nr_prob_2]. unfold vl. cbn [nth]. entries. splits; try lra.
  set (a := u 0%nat). set (b := u 1%nat). pose proof (sqrt_sqrt 3 ltac:(lra)) as Q. set (q := sqrt 3) in *. split.
  - intros [H0 H1]. assert (E : b = 1 - a) by nra. rewrite E in H0. assert (P : (2 * a - 1 - q) * (2 * a - 1 + q) = 0) by nra. apply Rmult_integral in P. destruct P as [P|P]; [right|left]; lra.
  - intros [[-> ->]|[-> ->]]; nra.
Qed.
(** the solutions are the curve lambda(u); it folds exactly at u = 1: lambda is largest
    there, Gu is zero there and nowhere else on the curve *)
Theorem C90_fold_point l u : (root one_eq_with_fold_point 1 l u <-> l = fold_point_lambda (u 0%nat)) /\
  root one_eq_with_fold_point 1 (snd fold_point_state) (fst fold_point_state) /\
  fold_point_lambda (u 0%nat) <= fold_point_lambda 1 /\ fold_point_lambda 1 = / exp 1 /\
  (gu one_eq_with_fold_point (fold_point_lambda (u 0%nat)) u 0 0 = 0 <-> u 0%nat = 1).
Proof.
  rewrite !root1. unfold fold_point_lambda, fold_point_state, gu. cbn [ns_gg ns_ggu one_eq_with_fold_point fst snd]. unfold vl. cbn [nth]. entries.
  set (v := u 0%nat). clearbody v. rewrite !exp_Ropp. pose proof (exp_pos v) as P. pose proof (exp_pos 1) as P1. splits; try lra.
  - split; intros H; [apply Rmult_eq_reg_r with (exp v); [|lra]; field_simplify; lra|rewrite H; field; lra].
  - pose proof (exp_ineq1_le (v - 1)) as E. assert (X : exp v = exp 1 * exp (v - 1)) by (rewrite <- exp_plus; f_equal; ring).
    apply Rmult_le_reg_r with (exp v); [lra|]. replace (/ exp v * v * exp v) with v by (field; lra). rewrite X. replace (/ exp 1 * 1 * (exp 1 * exp (v - 1))) with (exp (v - 1)) by (field; lra). lra.
  - replace (0 + (1 - / exp v * v * exp v)) with (1 - v) by (field; lra). lra.
Qed.
Theorem C90_singular_root alpha l u : root (singular_initial_state alpha) 1 l u <-> l = singular_lambda alpha (u 0%nat).
Proof. rewrite root1. unfold singular_lambda. cbn. lra. Qed.
(** all solutions are on the circle; the initial state is the point u = lambda of it *)
Theorem C90_circle_root radius l u : (root (circle_ul radius) 1 l u <-> u 0%nat * u 0%nat + l * l = radius * radius) /\
  let '(u0, l0) := circle_state radius in root (circle_ul radius) 1 l0 u0 /\ u0 0%nat = l0 /\ (0 < radius -> 0 < l0).
Proof.
  unfold circle_state. rewrite !root1. cbn. pose proof (sqrt_sqrt 2 ltac:(lra)) as Q. pose proof (sqrt_lt_R0 2 ltac:(lra)) as P. splits; try lra.
  - replace (radius / sqrt 2 * (radius / sqrt 2)) with (radius * radius / (sqrt 2 * sqrt 2)) by (field; lra). rewrite Q. lra.
  - intros. apply Rdiv_lt_0_compat; lra.
Qed.

(** ** System::new *)
(** refused exactly for a zero dimension or a zero number of entries; the default
    number of entries is the number of positions that can be stored; a matrix of
    the chosen kind can always be made *)
Theorem C90_new ndim nnz s :
  (exists e, nsys_new ndim nnz s = Err e /\ (ndim = 0%nat \/ nnz = Some 0%nat)) \/
  (exists y, nsys_new ndim nnz s = Ok y /\ ndim <> 0%nat /\ nnz <> Some 0%nat /\ ny_ndim y = ndim /\ ny_sym y = s /\
     match nnz with
     | Some n => ny_nnz y = n
     | None => ny_nnz y = length (flat_map (fun j => filter (fun i => in_triangle s i j) (seq 0 ndim)) (seq 0 ndim))
     end /\
     exists a, coo_new R 0 (ny_ndim y) (ny_ndim y) (ny_nnz y) (ny_sym y) = Ok a).
Proof.
  unfold nsys_new. destruct (Nat.ltb_spec ndim 1).
  { left. eexists. split; [reflexivity|]. left. lia. }
  assert (HC : forall n, (1 <= n)%nat -> exists a, coo_new R 0 ndim ndim n s = Ok a).
  { intros n Hn. apply C01_coo_new_ok. splits; auto. }
  destruct nnz as [n|].
  - destruct (Nat.ltb_spec n 1); cbn.
    + left. eexists. split; [reflexivity|]. right. f_equal. lia.
    + right. eexists. split; [reflexivity|]. splits; try lia; auto. intros E. injection E as E. lia.
  - right. cbn [bind]. eexists. split; [reflexivity|]. cbn [ny_ndim ny_nnz ny_sym]. splits; try lia; try discriminate; auto.
    + apply (C89_default_nnz ndim s).
    + apply HC. destruct (triangular s); [|nia]. change 1%nat with (2 / 2)%nat. apply Nat.div_le_mono; nia.
Qed.

(** ** mat_approx_eq *)
(** accepts exactly the matrices of equal sizes whose entries differ by at most [tol]; else panics *)
Definition approx_equal (a b : dmat R) (tol : R) : Prop := d_nrow a = d_nrow b /\ d_ncol a = d_ncol b /\
  forall i j x y, (i < d_nrow a)%nat -> (j < d_ncol a)%nat -> d_get a i j = Ok x -> d_get b i j = Ok y -> Rabs (x - y) <= tol.
Lemma loop_decides (P : nat -> Prop) (f : nat -> unit -> res unit) n :
  (forall i s, (i < n)%nat -> (f i s = Ok tt /\ P i) \/ (f i s = Panic /\ ~ P i)) ->
  forall k lo, (lo + k <= n)%nat -> (for_n k lo f tt = Ok tt /\ forall i, (lo <= i < lo + k)%nat -> P i) \/ (for_n k lo f tt = Panic /\ ~ forall i, (lo <= i < lo + k)%nat -> P i).
Proof.
  intros H. induction k as [|k IH]; intros lo Hk.
  - left. split; [reflexivity|]. intros i Hi. lia.
  - cbn [for_n]. destruct (H lo tt ltac:(lia)) as [[E HP]|[E HP]]; rewrite E; cbn [bind].
    + destruct (IH (Datatypes.S lo) ltac:(lia)) as [[E2 H2]|[E2 H2]]; rewrite E2; [left|right]; (split; [reflexivity|]).
      * intros i Hi. destruct (Nat.eq_dec i lo) as [->|]; auto. apply H2. lia.
      * intros H3. apply H2. intros i Hi. apply H3. lia.
    + right. split; [reflexivity|]. intros H3. apply HP, H3. lia.
Qed.
Theorem C90_mat_approx_eq a b tol : d_wf a -> d_wf b ->
  (mat_approx_eq a b tol = Ok tt /\ approx_equal a b tol) \/ (mat_approx_eq a b tol = Panic /\ ~ approx_equal a b tol).
Proof.
  intros Wa Wb. unfold mat_approx_eq, approx_equal.
  destruct (Nat.eqb_spec (d_nrow a) (d_nrow b)) as [ER|]; cbn [negb]; [|right; split; [reflexivity|tauto]].
  destruct (Nat.eqb_spec (d_ncol a) (d_ncol b)) as [EC|]; cbn [negb]; [|right; split; [reflexivity|tauto]].
  set (P := fun i j => Rabs (dval 0 a i j - dval 0 b i j) <= tol).
  match goal with |- context [for_range 0 (d_nrow a) ?f tt] =>
    destruct (loop_decides (fun i => forall j, (0 <= j < 0 + d_ncol a)%nat -> P i j) f (d_nrow a)) with (k := d_nrow a) (lo := 0%nat) as [[E H]|[E H]]; auto end.
  - intros i [] Hi. unfold for_range. rewrite Nat.sub_0_r. apply (loop_decides (P i) _ (d_ncol a)); auto.
    intros j [] Hj. rewrite (d_get_val R 0 a i j), (d_get_val R 0 b i j); auto; try lia. cbn [bind]. unfold P.
    destruct (Rltb_spec tol (Rabs (dval 0 a i j - dval 0 b i j))); [right|left]; (split; [reflexivity|]); lra.
  - left. unfold for_range. rewrite Nat.sub_0_r. split; [exact E|]. splits; auto. intros i j x y Hi Hj Ex Ey.
    rewrite (d_get_val R 0 a i j) in Ex; auto. rewrite (d_get_val R 0 b i j) in Ey by (auto; lia). injection Ex as <-. injection Ey as <-. apply H; lia.
  - right. unfold for_range. rewrite Nat.sub_0_r. split; [exact E|]. intros (_ & _ & H3). apply H. intros i Hi j Hj. unfold P. apply (H3 i j); try lia; apply d_get_val; auto; lia.
Qed.

(** ** check_ggu *)
(** the value at (i, j) of the matrix the callback has filled *)
Definition held (a : coo R) (i j : nat) : R := entry R 0 Rplus (expand (c_sym a) (coo_triplets a)) i j.
Lemma get_inj (D : dmat R) i j x y : d_get D i j = Ok x -> d_get D i j = Ok y -> x = y.
Proof. intros H K. rewrite H in K. now injection K. Qed.

Section Check.
Variable A : Type.
Variable calc_gg : list R -> R -> list R -> A -> list R * A * res unit.
Variable calc_jac : coo R -> list R -> R -> list R -> A -> coo R * list R * A * res unit.

(** If calc_gg computes the smooth G(0, u) near u_at, and calc_jac leaves a matrix of
    the right size, then check_ggu accepts when all its entries are within the tolerance
    (less the error of the numerical derivative) of the derivatives of G(0, .), and
    panics when one is farther than the tolerance (plus that error). *)
Theorem C90_check_ggu y l_at u_at args tol (G0 : list R -> nat -> R) B lo hi a0 a1 ggl' args1 :
  let nd := ny_ndim y in let e := 1 / 288 * (1 / 1000) ^ 4 * B in
  evaluates A calc_gg nd 0 u_at G0 -> (nd <= length u_at)%nat ->
  (forall i j, (i < nd)%nat -> (j < nd)%nat -> smooth (along u_at G0 i j) 5 (lo j) (hi j) /\ bounded (along u_at G0 i j) 5 (lo j) (hi j) B) ->
  (forall j, (j < nd)%nat -> lo j < nth j u_at 0 - 1 / 1000 /\ nth j u_at 0 + 1 / 1000 < hi j) ->
  coo_new R 0 nd nd (ny_nnz y) (ny_sym y) = Ok a0 ->
  calc_jac a0 (repeat 0 nd) l_at u_at args = (a1, ggl', args1, Ok tt) -> coo_valid a1 -> c_nrow a1 = nd -> c_ncol a1 = nd ->
  ((forall i j, (i < nd)%nat -> (j < nd)%nat -> Rabs (held a1 i j - Derive (along u_at G0 i j) (nth j u_at 0)) <= tol - e) ->
     exists args', check_ggu A calc_gg calc_jac y l_at u_at args tol = (args', Ok tt)) /\
  ((exists i j, (i < nd)%nat /\ (j < nd)%nat /\ tol + e < Rabs (held a1 i j - Derive (along u_at G0 i j) (nth j u_at 0))) ->
     exists args', check_ggu A calc_gg calc_jac y l_at u_at args tol = (args', Panic)).
Proof.
  intros nd e HE HL HS HI Ea Ej V1 R1 R2.
  destruct (C91_num_jacobian A calc_gg nd 0 u_at G0 1 B lo hi args1 HE HL HS HI) as (args' & J & EJ & N1 & N2 & HJ).
  destruct (C02_coo_as_dense R 0 Rplus a1 V1) as (D & ED & D1 & D2 & HD).
  unfold check_ggu. fold nd. rewrite Ea, Ej, EJ, ED. cbn [bind].
  assert (WD : d_wf D). { destruct (coo_as_dense_is R 0 Rplus a1 V1) as (D' & E' & W1 & W2 & W3 & _). rewrite ED in E'. injection E' as ->. unfold d_wf. rewrite W3. congruence. }
  assert (WJ : d_wf J) by exact (num_jacobian_wf _ _ _ _ _ _ _ _ _ EJ).
  assert (Q : forall i j, (i < nd)%nat -> (j < nd)%nat -> exists v, d_get D i j = Ok (held a1 i j) /\ d_get J i j = Ok v /\ Rabs (v - Derive (along u_at G0 i j) (nth j u_at 0)) <= e).
  { intros i j Hi Hj. destruct (HJ i j Hi Hj) as (v & Ev & Hv). exists v. splits; auto; [apply HD; lia|]. rewrite Rabs_R1, !Rmult_1_l in Hv. exact Hv. }
  destruct (C90_mat_approx_eq D J tol WD WJ) as [[E H]|[E H]]; rewrite E; split; intros K.
  - now exists args'.
  - exfalso. destruct K as (i & j & Hi & Hj & K). destruct (Q i j Hi Hj) as (v & E1 & E2 & E3). destruct H as (_ & _ & H).
    specialize (H i j _ _ ltac:(lia) ltac:(lia) E1 E2). pose proof (Rabs_triang (held a1 i j - v) (v - Derive (along u_at G0 i j) (nth j u_at 0))) as T.
    replace (held a1 i j - v + (v - Derive (along u_at G0 i j) (nth j u_at 0))) with (held a1 i j - Derive (along u_at G0 i j) (nth j u_at 0)) in T by ring. lra.
  - exfalso. apply H. unfold approx_equal. splits; try lia. intros i j x z Hi Hj Ex Ez. destruct (Q i j) as (v & E1 & E2 & E3); try lia.
    rewrite (get_inj _ _ _ _ _ Ex E1), (get_inj _ _ _ _ _ Ez E2). specialize (K i j ltac:(lia) ltac:(lia)).
    pose proof (Rabs_triang (held a1 i j - Derive (along u_at G0 i j) (nth j u_at 0)) (Derive (along u_at G0 i j) (nth j u_at 0) - v)) as T.
    rewrite (Rabs_minus_sym (Derive _ _)) in T.
    replace (held a1 i j - Derive (along u_at G0 i j) (nth j u_at 0) + (Derive (along u_at G0 i j) (nth j u_at 0) - v)) with (held a1 i j - v) in T by ring. lra.
  - now exists args'.
Qed.
End Check.

(** Finding: check_ggu differentiates G numerically at lambda = 0 instead of the given
    lambda. The Jacobian of one_eq_with_fold_point is right everywhere
    (C90_one_eq_with_fold_point), but its check panics at every u and every lambda with
    |lambda| exp(u) greater than the tolerance. *)
Theorem C90_check_ggu_refuted y l u tol : ns_sys one_eq_with_fold_point = Ok y -> tol < Rabs l * exp u ->
  check_ggu unit (gg_callback one_eq_with_fold_point 1) (jac_callback one_eq_with_fold_point 1) y l [u] tt tol = (tt, Panic).
Proof.
  intros E Ht. injection E as <-.
  destruct (coo_puts_all R (mkCoo SymNo 1 1 0 1 [0%nat] [0%nat] [0]) (ns_ggu one_eq_with_fold_point l (vl [u]))) as (a1 & E1 & V1 & T1 & R1 & R2 & R3 & R4).
  { eapply (coo_new_valid R 0 1 1 1 SymNo). reflexivity. }
  { cbn. ranges. }
  { cbn. lia. }
  set (G0 := fun (w : list R) (i : nat) => ns_gg one_eq_with_fold_point 0 (vl w) i).
  assert (HA : forall t, along [u] G0 0 0 t = t) by (intros t; unfold along, G0; cbn; ring).
  assert (HP : polynomial 4 (along [u] G0 0 0)).
  { exists (fun k => if (k =? 1)%nat then 1 else 0). intros t. rewrite HA. cbn. ring. }
  destruct (C90_check_ggu unit (gg_callback one_eq_with_fold_point 1) (jac_callback one_eq_with_fold_point 1) (mkNsys 1 1 SymNo) l [u] tt tol G0 0 (fun _ => u - 1) (fun _ => u + 1) (mkCoo SymNo 1 1 0 1 [0%nat] [0%nat] [0]) a1 [- exp u] tt) as [_ H].
  - intros w [|j] t [] Hw Hj _; [|cbn in Hj; lia]. do 2 eexists. split; [reflexivity|]. cbn. split; [reflexivity|]. intros [|i] Hi; [reflexivity|lia].
  - cbn. lia.
  - intros [|i] [|j] Hi Hj; cbn in Hi, Hj; try lia. split; [exact (polynomial_smooth 4 _ 5 _ _ HP)|exact (polynomial_flat 4 _ _ _ HP)].
  - intros [|j] Hj; cbn in Hj; [|lia]. cbn. lra.
  - reflexivity.
  - unfold jac_callback. cbn [repeat ny_ndim]. rewrite E1. reflexivity.
  - exact V1.
  - exact R1.
  - exact R2.
  - destruct H as ([] & H); [|exact H]. exists 0%nat, 0%nat. splits; try (cbn; lia).
    rewrite (Derive_ext _ (fun t => t) _ HA). cbn [nth]. rewrite Derive_id. unfold held. rewrite T1, R4. cbn. entries.
    replace (0 + (1 - l * exp u) - 1) with (- (l * exp u)) by ring. rewrite Rabs_Ropp, Rabs_mult, (Rabs_pos_eq (exp u)) by (left; apply exp_pos). lra.
Qed.
(** the hypotheses of C90_check_ggu are met: where Gu does not depend on lambda the check accepts it *)
Example C90_example : check_ggu unit (gg_callback (simple_linear_problem SymNo) 1) (jac_callback (simple_linear_problem SymNo) 1) (mkNsys 1 1 SymNo) 7 [3] tt (1 / 100) = (tt, Ok tt).
Proof.
  destruct (coo_puts_all R (mkCoo SymNo 1 1 0 1 [0%nat] [0%nat] [0]) (ns_ggu (simple_linear_problem SymNo) 7 (vl [3]))) as (a1 & E1 & V1 & T1 & R1 & R2 & R3 & R4).
  { eapply (coo_new_valid R 0 1 1 1 SymNo). reflexivity. }
  { cbn. ranges. }
  { cbn. lia. }
  set (G0 := fun (w : list R) (i : nat) => ns_gg (simple_linear_problem SymNo) 0 (vl w) i).
  assert (HA : forall t, along [3] G0 0 0 t = t) by (intros t; unfold along, G0; cbn; ring).
  assert (HP : polynomial 4 (along [3] G0 0 0)).
  { exists (fun k => if (k =? 1)%nat then 1 else 0). intros t. rewrite HA. cbn. ring. }
  destruct (C90_check_ggu unit (gg_callback (simple_linear_problem SymNo) 1) (jac_callback (simple_linear_problem SymNo) 1) (mkNsys 1 1 SymNo) 7 [3] tt (1 / 100) G0 0 (fun _ => 2) (fun _ => 4) (mkCoo SymNo 1 1 0 1 [0%nat] [0%nat] [0]) a1 [-1] tt) as [H _].
  - intros w [|j] t [] Hw Hj _; [|cbn in Hj; lia]. do 2 eexists. split; [reflexivity|]. cbn. split; [reflexivity|]. intros [|i] Hi; [reflexivity|lia].
  - cbn. lia.
  - intros [|i] [|j] Hi Hj; cbn in Hi, Hj; try lia. split; [exact (polynomial_smooth 4 _ 5 _ _ HP)|exact (polynomial_flat 4 _ _ _ HP)].
  - intros [|j] Hj; cbn in Hj; [|lia]. cbn. lra.
  - reflexivity.
  - unfold jac_callback. cbn [repeat ny_ndim]. rewrite E1. reflexivity.
  - exact V1.
  - exact R1.
  - exact R2.
  - destruct H as ([] & H); [|exact H]. intros [|i] [|j] Hi Hj; cbn in Hi, Hj; try lia.
    rewrite (Derive_ext _ (fun t => t) _ HA). cbn [nth]. rewrite Derive_id. unfold held. rewrite T1, R4. cbn. entries.
    replace (0 + 1 - 1) with 0 by ring. rewrite Rabs_R0. lra.
Qed.
Print Assumptions C90_check_ggu_refuted.
Print Assumptions C90_fold_point.
