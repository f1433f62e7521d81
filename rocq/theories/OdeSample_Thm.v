(** C89: the sample problems of russell_ode state what they document: their
    Jacobians are the derivatives of their right-hand sides, their analytical
    solutions solve them, and the number of non-zeros they declare is enough. *)
From Coq Require Import Reals List Lia Lra.
From Coquelicot Require Import Coquelicot.
From Verif Require Import Base RBase RSum Dense_Model Sparse_Model Sparse_Spec Sparse_Ops Sparse_Thm Fdm_Model Fdm_Stencil Fdm_Cap Fdm_Exists NumJac_Thm OdeSample_Model.
Import ListNotations.
Open Scope R_scope.

(** ** specification *)

(** y with its component j replaced *)
Definition set_at (y : vec) (j : nat) (t : R) : vec := fun k => if (k =? j)%nat then t else y k.

(** [run] fills every COO matrix of the right kind and capacity, whatever it holds,
    with alpha times the matrix of the partial derivatives of [F] at [y] *)
Definition jacobian_of (nd nnz : nat) (s : sym) (run : coo R -> res (coo R)) (alpha : R) (F : vec -> vec) (y : vec) : Prop :=
  forall a, coo_valid a -> c_nrow a = nd -> c_ncol a = nd -> c_sym a = s -> (nnz <= c_max a)%nat ->
  exists a' D, run a = Ok a' /\ coo_valid a' /\ c_sym a' = s /\ c_max a' = c_max a /\ coo_as_dense R 0 Rplus a' = Ok D /\
    forall i j, (i < nd)%nat -> (j < nd)%nat ->
      exists d : R, is_derive (fun t : R => F (set_at y j t) i) (y j) d /\ d_get D i j = Ok (alpha * d).
(** [run] fills every new COO matrix of the right kind and capacity with [M] *)
Definition fills (nd nnz : nat) (s : sym) (run : coo R -> res (coo R)) (M : nat -> nat -> R) : Prop :=
  forall a, coo_valid a -> c_nnz a = 0%nat -> c_nrow a = nd -> c_ncol a = nd -> c_sym a = s -> (nnz <= c_max a)%nat ->
  exists a' D, run a = Ok a' /\ coo_valid a' /\ coo_as_dense R 0 Rplus a' = Ok D /\
    forall i j, (i < nd)%nat -> (j < nd)%nat -> d_get D i j = Ok (M i j).
Definition identity (i j : nat) : R := if (i =? j)%nat then 1 else 0.
(** [Y] solves M y' = F(x, y), y(x0) = y0 at all points satisfying [dom] *)
Definition solves (nd : nat) (M : nat -> nat -> R) (F : R -> vec -> vec) (x0 : R) (y0 : vec) (Y : R -> vec) (dom : R -> Prop) : Prop :=
  (forall i, (i < nd)%nat -> Y x0 i = y0 i) /\
  forall x, dom x -> exists Y' : vec, (forall i, (i < nd)%nat -> is_derive (fun t : R => Y t i) x (Y' i)) /\
    forall i, (i < nd)%nat -> sumn nd (fun j => M i j * Y' j) = F x (Y x) i.

(** what holds for each sample with dimension [nd], [nnz] entries and storage [s] *)
Definition sample_jacobian (p : sample) (nd nnz : nat) (s : sym) (alpha x : R) (y : vec) : Prop :=
  (exists u, sa_sys p = Ok u /\ sy_ndim u = nd /\ sy_jac_nnz u = nnz /\ sy_symmetric u = s) /\
  jacobian_of nd nnz s (run_jac (sa_jac p alpha x y)) alpha (sa_f p x) y.

(** ** the put list *)

Definition stored (nd : nat) (s : sym) (t : nat * nat * R) : Prop :=
  (row_of t < nd)%nat /\ (col_of t < nd)%nat /\ in_triangle s (row_of t) (col_of t) = true.

Lemma reset_valid (a : coo R) : coo_valid a -> coo_valid (coo_reset a).
Proof.
  intros (V1 & V2 & V3 & V4 & V5 & V6 & V7 & V8 & _). unfold coo_valid, coo_reset. cbn. splits; auto; try lia; intros t [].
Qed.
Lemma reset_triplets (a : coo R) : coo_triplets (coo_reset a) = [].
Proof. reflexivity. Qed.
Lemma puts_fill nd s (l : puts) (a : coo R) M : coo_valid a -> coo_triplets a = [] -> c_nnz a = 0%nat -> c_nrow a = nd -> c_ncol a = nd -> c_sym a = s ->
  (length l <= c_max a)%nat -> Forall (stored nd s) l ->
  (forall i j, (i < nd)%nat -> (j < nd)%nat -> entry R 0 Rplus (expand s l) i j = M i j) ->
  exists a' D, run_mass l a = Ok a' /\ coo_valid a' /\ c_sym a' = s /\ c_max a' = c_max a /\ coo_as_dense R 0 Rplus a' = Ok D /\
    forall i j, (i < nd)%nat -> (j < nd)%nat -> d_get D i j = Ok (M i j).
Proof.
  intros V Tr Z Er Ec Es Cap HF HE.
  destruct (coo_puts_all R a l V) as (a' & E & V' & T' & R1 & R2 & R3 & R4).
  - rewrite Er, Ec, Es. exact HF.
  - lia.
  - destruct (C02_coo_as_dense R 0 Rplus a' V') as (D & ED & _ & _ & G). exists a', D. splits; auto; try congruence.
    + unfold run_mass, unwrap_mut. now rewrite E.
    + intros i j Hi Hj. rewrite G by (rewrite ?R1, ?R2; lia). rewrite R4, Es, T', Tr. cbn [app]. f_equal. auto.
Qed.
Lemma no_triplets (a : coo R) : c_nnz a = 0%nat -> coo_triplets a = [].
Proof. intros H. unfold coo_triplets. now rewrite H. Qed.
Lemma puts_jacobian nd nnz s l alpha F y : (length l <= nnz)%nat -> Forall (stored nd s) l ->
  (forall i j, (i < nd)%nat -> (j < nd)%nat ->
     exists d : R, is_derive (fun t : R => F (set_at y j t) i) (y j) d /\ entry R 0 Rplus (expand s l) i j = alpha * d) ->
  jacobian_of nd nnz s (run_jac l) alpha F y.
Proof.
  intros HL HF HE a V Er Ec Es Cap.
  destruct (puts_fill nd s l (coo_reset a) (fun i j => entry R 0 Rplus (expand s l) i j)) as (a' & D & E & V' & S' & X' & ED & G); auto.
  - now apply reset_valid.
  - cbn. lia.
  - exists a', D. splits; auto. intros i j Hi Hj. destruct (HE i j Hi Hj) as (d & Hd & K). exists d. split; auto. rewrite G by auto. now rewrite K.
Qed.
Lemma puts_mass nd nnz s l M : (length l <= nnz)%nat -> Forall (stored nd s) l ->
  (forall i j, (i < nd)%nat -> (j < nd)%nat -> entry R 0 Rplus (expand s l) i j = M i j) -> fills nd nnz s (run_mass l) M.
Proof.
  intros HL HF HE a V Z Er Ec Es Cap. destruct (puts_fill nd s l a M) as (a' & D & E & V' & _ & _ & ED & G); auto.
  - now apply no_triplets.
  - lia.
  - exists a', D. splits; auto.
Qed.

Fixpoint all_lt (n : nat) (P : nat -> Prop) : Prop := match n with O => True | S m => all_lt m P /\ P m end.
Lemma all_lt_ok n P : all_lt n P -> forall i, (i < n)%nat -> P i.
Proof. induction n; cbn; intros H i Hi; [lia|]. destruct (Nat.eq_dec i n) as [->|]; [apply H|apply IHn; [apply H|lia]]. Qed.
Lemma all_lt2 n (P : nat -> nat -> Prop) : all_lt n (fun i => all_lt n (P i)) -> forall i j, (i < n)%nat -> (j < n)%nat -> P i j.
Proof. intros H i j Hi Hj. exact (all_lt_ok n (P i) (all_lt_ok n _ H i Hi) j Hj). Qed.

Ltac ranges := repeat (constructor; [unfold stored, row_of, col_of; cbn; splits; auto; lia|]); constructor.
Ltac entries := cbv [entry vals_at expand flat_map triangular andb negb map filter at_pos row_of col_of val_of fst snd Nat.eqb app fold_left].
Ltac config := eexists; split; [reflexivity|]; repeat split.
Ltac derive := auto_derive; [try exact I|reflexivity].
Ltac jacobian := apply puts_jacobian; [cbn; lia|cbn -[Rmult Rplus]; ranges|];
  apply all_lt2; cbn -[Rmult Rplus Rdiv Rminus entry expand];
  repeat (split; [|]); try exact I; cbv [set_at vl nth Nat.eqb]; entries.

Ltac simple_jacobian := jacobian; eexists; (split; [derive|try field]).

Theorem C89_simple_equation_constant alpha x y : sample_jacobian simple_equation_constant 1 1 SymNo alpha x y.
Proof. split; [config|]. simple_jacobian. Qed.
Theorem C89_simple_system_with_mass_matrix symmetric g alpha x y :
  let s := get_sym g symmetric in
  sample_jacobian (simple_system_with_mass_matrix symmetric g) 3 (if triangular s then 3 else 4) s alpha x y.
Proof. destruct symmetric, g; (split; [config|]); simple_jacobian. Qed.
Theorem C89_brusselator_ode alpha x y : sample_jacobian brusselator_ode 2 4 SymNo alpha x y.
Proof. split; [config|]. simple_jacobian. Qed.
Theorem C89_hairer_wanner_eq1 alpha x y : sample_jacobian hairer_wanner_eq1 1 1 SymNo alpha x y.
Proof. split; [config|]. simple_jacobian. Qed.
Theorem C89_robertson alpha x y : sample_jacobian robertson 3 7 SymNo alpha x y.
Proof. split; [config|]. simple_jacobian; cbv [Q2R QArith_base.Qnum QArith_base.Qden]; field. Qed.
Theorem C89_van_der_pol epsilon stationary alpha x y : epsilon <> 0 ->
  sample_jacobian (van_der_pol epsilon stationary) 2 3 SymNo alpha x y.
Proof. intros He. split; [config|]. destruct stationary; simple_jacobian; auto. Qed.
Theorem C89_amplifier1t alpha x y : sample_jacobian amplifier1t 5 9 SymNo alpha x y.
Proof. split; [config|]. simple_jacobian. all: try (fold (Rminus (y 1%nat) (y 2%nat)); fold (Rdiv (y 1%nat - y 2%nat) am_UF); field). all: unfold am_R, am_S, am_UF; splits; lra. Qed.
Theorem C89_kreyszig_eq6 alpha x y : sample_jacobian kreyszig_eq6_page902 1 1 SymNo alpha x y.
Proof. split; [config|]. simple_jacobian. Qed.
Theorem C89_kreyszig_ex4 alpha x y : sample_jacobian kreyszig_ex4_page920 2 3 SymNo alpha x y.
Proof. split; [config|]. simple_jacobian. Qed.

(** ** Arenstorf's orbit *)
Lemma quot_derive (N T : R -> R) (x dN dT : R) : is_derive N x dN -> is_derive T x dT -> 0 < T x ->
  is_derive (fun t : R => N t / (T t * sqrt (T t))) x (dN / (T x * sqrt (T x)) - 3 / 2 * N x * dT / (T x * T x * sqrt (T x))).
Proof.
  intros HN HT P. pose proof (sqrt_lt_R0 _ P) as Q. pose proof (sqrt_sqrt (T x) ltac:(lra)) as SS.
  auto_derive.
  - splits; auto; [now exists dN|now exists dT|now exists dT|]. apply Rgt_not_eq, Rmult_lt_0_compat; auto.
  - change (fun x0 : R => N x0) with N. change (fun x0 : R => T x0) with T. rewrite (is_derive_unique N x dN HN), (is_derive_unique T x dT HT). set (s := sqrt (T x)) in *. rewrite <- SS. field. lra.
Qed.
Lemma two_quots (P N0 T0 N1 T1 : R -> R) (x dP dN0 dT0 dN1 dT1 : R) : is_derive P x dP -> is_derive N0 x dN0 -> is_derive T0 x dT0 -> is_derive N1 x dN1 -> is_derive T1 x dT1 ->
  0 < T0 x -> 0 < T1 x ->
  is_derive (fun t : R => P t - N0 t / (T0 t * sqrt (T0 t)) - N1 t / (T1 t * sqrt (T1 t))) x
    (dP - (dN0 / (T0 x * sqrt (T0 x)) - 3 / 2 * N0 x * dT0 / (T0 x * T0 x * sqrt (T0 x))) - (dN1 / (T1 x * sqrt (T1 x)) - 3 / 2 * N1 x * dT1 / (T1 x * T1 x * sqrt (T1 x)))).
Proof.
  intros. refine (is_derive_minus (K := R_AbsRing) (V := R_NormedModule) _ _ x _ _ _ _); [refine (is_derive_minus (K := R_AbsRing) (V := R_NormedModule) _ _ x _ _ _ _)|]; auto using quot_derive.
Qed.
Lemma square_pos a b : a <> 0 \/ b <> 0 -> 0 < a * a + b * b.
Proof. intros [H|H]; [assert (0 < a * a) by nra|assert (0 < b * b) by nra]; nra. Qed.
(** away from the two bodies *)
Theorem C89_arenstorf alpha x y : (y 0%nat <> - MU \/ y 1%nat <> 0) -> (y 0%nat <> MD \/ y 1%nat <> 0) ->
  sample_jacobian arenstorf 4 8 SymNo alpha x y.
Proof.
  intros H0 H1. split; [config|].
  assert (P0 : 0 < (y 0%nat + MU) * (y 0%nat + MU) + y 1%nat * y 1%nat) by (apply square_pos; destruct H0; [left; lra|auto]).
  assert (P1 : 0 < (y 0%nat - MD) * (y 0%nat - MD) + y 1%nat * y 1%nat) by (apply square_pos; destruct H1; [left; lra|auto]).
  pose proof (sqrt_lt_R0 _ P0) as Q0. pose proof (sqrt_lt_R0 _ P1) as Q1. 
  set (a := y 0%nat) in *. set (b := y 1%nat) in *. set (c := y 2%nat) in *. set (e := y 3%nat) in *.
  set (A0 := (fun t : R => (t + MU) * (t + MU) + b * b)). set (A1 := (fun t : R => (t - MD) * (t - MD) + b * b)).
  set (B0 := (fun t : R => (a + MU) * (a + MU) + t * t)). set (B1 := (fun t : R => (a - MD) * (a - MD) + t * t)).
  assert (DA0 : is_derive A0 a (2 * (a + MU))) by (unfold A0; auto_derive; [exact I|ring]).
  assert (DA1 : is_derive A1 a (2 * (a - MD))) by (unfold A1; auto_derive; [exact I|ring]).
  assert (DB0 : is_derive B0 b (2 * b)) by (unfold B0; auto_derive; [exact I|ring]).
  assert (DB1 : is_derive B1 b (2 * b)) by (unfold B1; auto_derive; [exact I|ring]).
  assert (E20 := two_quots (fun t => t + 2 * e) (fun t => MD * (t + MU)) A0 (fun t => MU * (t - MD)) A1 a 1 MD _ MU _ ltac:(auto_derive; [exact I|ring]) ltac:(auto_derive; [exact I|ring]) DA0 ltac:(auto_derive; [exact I|ring]) DA1 P0 P1).
  assert (E21 := two_quots (fun t => a + 2 * e) (fun t => MD * (a + MU)) B0 (fun t => MU * (a - MD)) B1 b 0 0 _ 0 _ ltac:(auto_derive; [exact I|ring]) ltac:(auto_derive; [exact I|ring]) DB0 ltac:(auto_derive; [exact I|ring]) DB1 P0 P1).
  assert (E30 := two_quots (fun t => b - 2 * c) (fun t => MD * b) A0 (fun t => MU * b) A1 a 0 0 _ 0 _ ltac:(auto_derive; [exact I|ring]) ltac:(auto_derive; [exact I|ring]) DA0 ltac:(auto_derive; [exact I|ring]) DA1 P0 P1).
  assert (E31 := two_quots (fun t => t - 2 * c) (fun t => MD * t) B0 (fun t => MU * t) B1 b 1 MD _ MU _ ltac:(auto_derive; [exact I|ring]) ltac:(auto_derive; [exact I|ring]) DB0 ltac:(auto_derive; [exact I|ring]) DB1 P0 P1).
  clear DA0 DA1 DB0 DB1. subst A0 A1 B0 B1. cbv beta in E20, E21, E30, E31.
  jacobian; fold a b c e.
  all: try solve [eexists; split; [derive|ring]].
  1: eexists; split; [exact E20|].
  2: eexists; split; [exact E21|].
  3: eexists; split; [exact E30|].
  4: eexists; split; [exact E31|].
  all: clear E20 E21 E30 E31; set (s0 := sqrt _) in *; set (t0 := (a + MU) * (a + MU) + b * b) in *; set (s1 := sqrt _) in *; set (t1 := (a - MD) * (a - MD) + b * b) in *; clearbody s0 s1 t0 t1; field; splits; lra.
Qed.

(** ** mass matrices and analytical solutions *)

Theorem C89_mass_simple symmetric g :
  let s := get_sym g symmetric in let p := simple_system_with_mass_matrix symmetric g in
  exists u l, sa_sys p = Ok u /\ sa_mass p = Some l /\
  fills 3 (sy_mass_nnz u) s (run_mass l) (fun i j => nth j (nth i [[1; 1; 0]; [1; -1; 0]; [0; 0; 1]] []) 0).
Proof.
  destruct symmetric, g; (do 2 eexists; split; [reflexivity|]; split; [reflexivity|]);
    (apply puts_mass; [cbn; lia|cbn -[Rmult Rplus]; ranges|]; apply all_lt2; cbn -[Rmult Rplus Rdiv Rminus entry expand]; splits; try exact I; entries; ring).
Qed.
Theorem C89_mass_amplifier1t :
  exists u l, sa_sys amplifier1t = Ok u /\ sa_mass amplifier1t = Some l /\
  fills 5 (sy_mass_nnz u) SymNo (run_mass l) (fun i j => nth j (nth i
    [[-1e-6; 1e-6; 0; 0; 0]; [1e-6; -1e-6; 0; 0; 0]; [0; 0; -2e-6; 0; 0]; [0; 0; 0; -3e-6; 3e-6]; [0; 0; 0; 3e-6; -3e-6]] []) 0).
Proof.
  do 2 eexists; split; [reflexivity|]; split; [reflexivity|].
  apply puts_mass; [cbn; lia|cbn -[Rmult Rplus]; ranges|]; apply all_lt2; cbn -[Rmult Rplus Rdiv Rminus entry expand]; splits; try exact I; entries; unfold am_C1, am_C2, am_C3; lra.
Qed.
(** the initial values are consistent: some y' satisfies M y' = f(0, y0), although M is singular *)
Theorem C89_amplifier1t_consistent : exists Y' : vec, forall i, (i < 5)%nat ->
  sumn 5 (fun j => nth j (nth i [[-1e-6; 1e-6; 0; 0; 0]; [1e-6; -1e-6; 0; 0; 0]; [0; 0; -2e-6; 0; 0]; [0; 0; 0; -3e-6; 3e-6]; [0; 0; 0; 3e-6; -3e-6]] []) 0 * Y' j)
  = sa_f amplifier1t (sa_x0 amplifier1t) (sa_y0 amplifier1t) i.
Proof.
  exists (vl [0; 0; (3 / 9000) / (-2e-6); 0; 0]). apply all_lt_ok. cbn -[Rmult Rplus Rdiv Rminus sin exp]. rewrite ?Rmult_0_r, sin_0.
  unfold am_A, am_R, am_S, am_UB, am_BETA, am_GAMMA, am_ALPHA, am_UF.
  replace ((6 / 2 - 6 / 2) / 0.026) with 0 by lra. rewrite exp_0. splits; try exact I; lra.
Qed.

Ltac ode := split; [apply all_lt_ok; cbn -[Rmult Rplus Rdiv Rminus exp sin cos ln]; splits; try exact I|].

Theorem C89_solution_simple_constant : exists Y, sa_sol simple_equation_constant = Some Y /\
  solves 1 identity (sa_f simple_equation_constant) (sa_x0 simple_equation_constant) (sa_y0 simple_equation_constant) Y (fun _ => True).
Proof.
  eexists. split; [reflexivity|]. ode; [reflexivity|]. intros x _. exists (vl [1]). split.
  - apply all_lt_ok. cbn. split; [exact I|]. auto_derive; auto.
  - apply all_lt_ok. cbn -[Rmult Rplus]. split; [exact I|ring].
Qed.
Theorem C89_solution_mass symmetric g : let p := simple_system_with_mass_matrix symmetric g in
  exists Y, sa_sol p = Some Y /\
  solves 3 (fun i j => nth j (nth i [[1; 1; 0]; [1; -1; 0]; [0; 0; 1]] []) 0) (sa_f p) (sa_x0 p) (sa_y0 p) Y (fun x => -1 < x).
Proof.
  cbn zeta. eexists. split; [reflexivity|]. ode.
  - apply cos_0.
  - rewrite sin_0. ring.
  - rewrite Rplus_0_r. apply ln_1.
  - intros x Hx. exists (vl [- sin x; - cos x; / (1 + x)]). split; apply all_lt_ok; cbn -[Rmult Rplus Rdiv Rminus sin cos ln]; splits; try exact I.
    + auto_derive; auto. ring.
    + auto_derive; auto. ring.
    + auto_derive; [lra|field; lra].
    + ring.
    + ring.
    + field. lra.
Qed.
Theorem C89_solution_hairer_wanner : exists Y, sa_sol hairer_wanner_eq1 = Some Y /\
  solves 1 identity (sa_f hairer_wanner_eq1) (sa_x0 hairer_wanner_eq1) (sa_y0 hairer_wanner_eq1) Y (fun _ => True).
Proof.
  eexists. split; [reflexivity|]. ode.
  - rewrite Rmult_0_r, exp_0, sin_0, cos_0. field. unfold hw_L. lra.
  - intros x _. exists (vl [- hw_L * (cos x + hw_L * sin x + hw_L * (hw_L * exp (hw_L * x))) / (hw_L * hw_L + 1)]). split; apply all_lt_ok; cbn -[Rmult Rplus Rdiv Rminus sin cos exp]; (split; [exact I|]).
    + auto_derive; auto. field. unfold hw_L. lra.
    + unfold identity. cbn [Nat.eqb]. field. unfold hw_L. lra.
Qed.
Theorem C89_solution_kreyszig_eq6 : exists Y, sa_sol kreyszig_eq6_page902 = Some Y /\
  solves 1 identity (sa_f kreyszig_eq6_page902) (sa_x0 kreyszig_eq6_page902) (sa_y0 kreyszig_eq6_page902) Y (fun _ => True).
Proof.
  eexists. split; [reflexivity|]. ode.
  - rewrite exp_0. ring.
  - intros x _. exists (vl [exp x - 1]). split; apply all_lt_ok; cbn -[Rmult Rplus Rdiv Rminus exp]; (split; [exact I|]).
    + auto_derive; auto. ring.
    + unfold identity. cbn [Nat.eqb]. ring.
Qed.
Theorem C89_solution_kreyszig_ex4 : exists Y, sa_sol kreyszig_ex4_page920 = Some Y /\
  solves 2 identity (sa_f kreyszig_ex4_page920) (sa_x0 kreyszig_ex4_page920) (sa_y0 kreyszig_ex4_page920) Y (fun _ => True).
Proof.
  eexists. split; [reflexivity|]. ode.
  - rewrite Ropp_0, Rmult_0_r, exp_0. ring.
  - rewrite Ropp_0, Rmult_0_r, exp_0. ring.
  - intros x _. exists (vl [- exp (- x) - 10 * exp (-10 * x) + 1; exp (- x) + 100 * exp (-10 * x)]). split; apply all_lt_ok; cbn -[Rmult Rplus Rdiv Rminus exp]; splits; try exact I.
    + auto_derive; auto. ring.
    + auto_derive; auto. ring.
    + unfold identity. cbn [Nat.eqb]. ring.
    + unfold identity. cbn [Nat.eqb]. ring.
Qed.

(** ** configuration of a System *)

Inductive cfg := SetJacobian (nnz : option nat) (s : sym) | SetMass (nnz : option nat) (s : sym).
Definition step (u : sys) (c : cfg) : sys * res unit :=
  match c with SetJacobian n s => sys_set_jacobian u n s | SetMass n s => sys_set_mass u n s end.
Definition configure (ndim : nat) (h : list cfg) : sys := fold_left (fun u c => fst (step u c)) h (sys_new ndim).

Lemma sym_eqb_iff a b : sym_eqb a b = true <-> a = b.
Proof. destruct a, b; cbn; split; congruence. Qed.

(** after any history of calls, refused ones included: the two storage types agree,
    and the type of the solver matrices is theirs *)
Theorem C89_config ndim h : let u := configure ndim h in
  sy_ndim u = ndim /\
  (forall a b, sy_sym_jac u = Some a -> sy_sym_mass u = Some b -> a = b) /\
  (forall a, sy_sym_jac u = Some a \/ sy_sym_mass u = Some a -> sy_symmetric u = a) /\
  (sy_sym_jac u = None -> sy_sym_mass u = None -> sy_symmetric u = SymNo).
Proof.
  cbn zeta. unfold configure.
  assert (G : forall u, let ok u := sy_ndim u = ndim /\ (forall a b, sy_sym_jac u = Some a -> sy_sym_mass u = Some b -> a = b) /\
    (forall a, sy_sym_jac u = Some a \/ sy_sym_mass u = Some a -> sy_symmetric u = a) /\ (sy_sym_jac u = None -> sy_sym_mass u = None -> sy_symmetric u = SymNo) in
    ok u -> ok (fold_left (fun u c => fst (step u c)) h u)).
  { induction h as [|c h IH]; intros u ok Hu; [exact Hu|]. cbn [fold_left]. apply IH.
    destruct Hu as (H1 & H2 & H3 & H4). destruct c as [n s|n s]; cbn [step]; [unfold sys_set_jacobian|unfold sys_set_mass].
    - destruct (sy_sym_mass u) as [m|] eqn:Em; [destruct (sym_eqb s m) eqn:E; cbn [negb]|]; cbn [fst]; try (apply sym_eqb_iff in E; subst m).
      + cbn. rewrite ?Em. splits; auto; try congruence. intros a [[=]|[=]]; congruence.
      + rewrite ?Em. splits; auto.
      + cbn. rewrite ?Em. splits; auto; try congruence. intros a [[=]|[=]]; congruence.
    - destruct (sy_sym_jac u) as [m|] eqn:Em; [destruct (sym_eqb s m) eqn:E; cbn [negb]|]; cbn [fst]; try (apply sym_eqb_iff in E; subst m).
      + cbn. rewrite ?Em. splits; auto; try congruence. intros a [[=]|[=]]; congruence.
      + rewrite ?Em. splits; auto.
      + cbn. rewrite ?Em. splits; auto; try congruence. intros a [[=]|[=]]; congruence. }
  apply (G (sys_new ndim)). cbn. splits; auto; try congruence. intros a [[=]|[=]].
Qed.
(** a call is refused exactly if the other matrix has another storage type, and
    then changes nothing; the order of the two calls does not matter *)
Theorem C89_set_jacobian u nnz s :
  (exists v, sys_set_jacobian u nnz s = (v, Ok tt) /\ sy_sym_jac v = Some s /\ sy_sym_mass v = sy_sym_mass u /\ sy_mass_nnz v = sy_mass_nnz u /\
     sy_jac_nnz v = nnz_or_default (sy_ndim u) nnz s /\ (forall m, sy_sym_mass u = Some m -> m = s)) \/
  (exists e m, sys_set_jacobian u nnz s = (u, Err e) /\ sy_sym_mass u = Some m /\ m <> s).
Proof.
  unfold sys_set_jacobian. destruct (sy_sym_mass u) as [m|] eqn:Em; [destruct (sym_eqb s m) eqn:E; cbn [negb]|].
  - apply sym_eqb_iff in E. subst m. left. eexists. split; [reflexivity|]. cbn. splits; auto. congruence.
  - right. do 2 eexists. splits; auto. intros ->. rewrite (proj2 (sym_eqb_iff s s) eq_refl) in E. discriminate.
  - left. eexists. split; [reflexivity|]. cbn. splits; auto. congruence.
Qed.
Theorem C89_set_mass u nnz s :
  (exists v, sys_set_mass u nnz s = (v, Ok tt) /\ sy_sym_mass v = Some s /\ sy_sym_jac v = sy_sym_jac u /\ sy_jac_nnz v = sy_jac_nnz u /\
     sy_mass_nnz v = nnz_or_default (sy_ndim u) nnz s /\ (forall m, sy_sym_jac u = Some m -> m = s)) \/
  (exists e m, sys_set_mass u nnz s = (u, Err e) /\ sy_sym_jac u = Some m /\ m <> s).
Proof.
  unfold sys_set_mass. destruct (sy_sym_jac u) as [m|] eqn:Em; [destruct (sym_eqb s m) eqn:E; cbn [negb]|].
  - apply sym_eqb_iff in E. subst m. left. eexists. split; [reflexivity|]. cbn. splits; auto. congruence.
  - right. do 2 eexists. splits; auto. intros ->. rewrite (proj2 (sym_eqb_iff s s) eq_refl) in E. discriminate.
  - left. eexists. split; [reflexivity|]. cbn. splits; auto. congruence.
Qed.
(** the default number of non-zeros is the number of positions that can be stored *)
Theorem C89_default_nnz ndim s :
  nnz_or_default ndim None s = length (flat_map (fun j => filter (fun i => in_triangle s i j) (seq 0 ndim)) (seq 0 ndim)).
Proof.
  pose proof (NumJac_Thm.C12_count s ndim 0 [] [] (fun _ => [])) as H. unfold nnz_or_default. rewrite <- H.
  unfold NumJac_Thm.differences, NumJac_Thm.rows_stored. generalize (seq 0 ndim) at 2 4. intros l. induction l as [|j l IH]; [reflexivity|].
  cbn [flat_map]. rewrite !app_length, map_length. now rewrite IH.
Qed.

(** ** the Brusselator *)

Fixpoint lsum (l : list (nat * nat * R)) (i j : nat) : R :=
  match l with [] => 0 | t :: l => (if at_pos i j t then val_of t else 0) + lsum l i j end.
Lemma entry_lsum l i j : entry R 0 Rplus l i j = lsum l i j.
Proof.
  unfold entry, vals_at. transitivity (0 + lsum l i j); [|ring]. generalize 0. induction l as [|t l IH]; intros a; [cbn; ring|].
  cbn [filter lsum]. destruct (at_pos i j t); cbn [map fold_left]; rewrite IH; ring.
Qed.
Lemma lsum_app l l' i j : lsum (l ++ l')%list i j = lsum l i j + lsum l' i j.
Proof. induction l as [|t l IH]; cbn [app lsum]; [ring|]. rewrite IH. ring. Qed.
Lemma lsum_flat (g : nat -> list (nat * nat * R)) n i j : lsum (flat_map g (seq 0 n)) i j = sumn n (fun m => lsum (g m) i j).
Proof.
  induction n; [reflexivity|]. rewrite seq_S, flat_map_app, lsum_app, IHn. cbn [flat_map sumn Nat.add]. rewrite app_nil_r. reflexivity.
Qed.
Lemma expand_full s (l : list (nat * nat * R)) : triangular s = false -> expand s l = l.
Proof. intros E. unfold expand. rewrite E. cbn [andb]. induction l as [|[[a b] v] l IH]; [reflexivity|]. cbn. now rewrite IH. Qed.
Definition dl (k j : nat) : R := if (k =? j)%nat then 1 else 0.
Lemma set_at_derive y j k : is_derive (fun t : R => set_at y j t k) (y j) (dl k j).
Proof. unfold set_at, dl. destruct (k =? j)%nat; auto_derive; auto. Qed.
Lemma set_at_same y j k : set_at y j (y j) k = y k.
Proof. unfold set_at. destruct (Nat.eqb_spec k j); congruence. Qed.
(** sum of a(k) delta(off + k, j) over the molecule *)
Fixpoint msum (l : list (nat * R)) (off j : nat) : R := match l with [] => 0 | (k, a) :: l => a * dl (off + k) j + msum l off j end.
Lemma mol_derive l off y j (g : R -> R) (dg : R) : is_derive g (y j) dg ->
  is_derive (fun t : R => fold_left (fun f '(k, a) => f + a * set_at y j t (off + k)%nat) l (g t)) (y j) (dg + msum l off j).
Proof.
  revert g dg. induction l as [|[k a] l IH]; intros g dg H; cbn [fold_left msum].
  - rewrite Rplus_0_r. exact H.
  - rewrite <- Rplus_assoc. apply (IH (fun t => g t + a * set_at y j t (off + k)%nat)).
    refine (is_derive_plus (K := R_AbsRing) (V := R_NormedModule) g _ (y j) _ _ H _). apply is_derive_scal. apply set_at_derive.
Qed.
Lemma react_derive (c0 c1 c2 : R) y j m n : is_derive (fun t : R => c0 + c1 * set_at y j t m + c2 * (set_at y j t m * set_at y j t m * set_at y j t n)) (y j)
   ((c1 + 2 * c2 * y m * y n) * dl m j + c2 * (y m * y m) * dl n j).
Proof.
  unfold set_at, dl. destruct (Nat.eqb_spec m j) as [->|], (Nat.eqb_spec n j) as [->|]; auto_derive; auto; ring.
Qed.

Section Bru.
Variables px py : bool.
Variable molecule : list R.
Variable coord : nat -> R * R.
Variable np : nat.
Hypothesis Hnp : (2 <= np)%nat.
Hypothesis Hmol : length molecule = 5%nat.
Let s := (np * np)%nat.

Lemma nbrs_len m : (m < s)%nat -> length (nbrs2 px py np np m) = 5%nat.
Proof. intros _. unfold nbrs2. destruct px, py; reflexivity. Qed.
Lemma mol_lt m k a : (m < s)%nat -> In (k, a) (bru_mol px py molecule np m) -> (k < s)%nat.
Proof.
  intros Hm H. unfold bru_mol in H. apply in_combine_l in H. apply In_nth_error in H. destruct H as (b & H). exact (item2_lt px py np np m b k Hnp Hnp Hm H).
Qed.
Lemma mol_len m : (m < s)%nat -> length (bru_mol px py molecule np m) = 5%nat.
Proof. intros Hm. unfold bru_mol. rewrite combine_length, nbrs_len, Hmol by auto. reflexivity. Qed.

Definition block (ig : bool) (aa : R) (yy : vec) (m : nat) : puts :=
  let um := yy m in let vm := yy (s + m)%nat in let um2 := um * um in
  ([(m, m, aa * (-4.4 + 2 * um * vm)); (m, (s + m)%nat, aa * um2); ((s + m)%nat, m, aa * (3.4 - 2 * um * vm)); ((s + m)%nat, (s + m)%nat, aa * (- um2))] ++
     (if negb ig then flat_map (fun '(n, amn) => [(m, n, aa * amn); ((s + m)%nat, (s + n)%nat, aa * amn)]) (bru_mol px py molecule np m) else []))%list.
Lemma puts_blocks ig aa yy : bru_puts px py molecule np ig aa yy = flat_map (block ig aa yy) (seq 0 s).
Proof. reflexivity. Qed.
Lemma pairs_len (l : list (nat * R)) m aa : length (flat_map (fun '(n, amn) => [(m, n, aa * amn); ((s + m)%nat, (s + n)%nat, aa * amn)]) l) = (2 * length l)%nat.
Proof. induction l as [|[k a] l IH]; [reflexivity|]. cbn [flat_map app length]. rewrite IH. lia. Qed.
Lemma puts_len ig aa yy : length (bru_puts px py molecule np ig aa yy) = bru_jac_nnz np ig.
Proof.
  rewrite puts_blocks. assert (G : forall k, (k <= s)%nat -> length (flat_map (block ig aa yy) (seq 0 k)) = (k * (if ig then 4 else 14))%nat).
  { induction k as [|k IH]; intros Hk; [reflexivity|]. rewrite seq_S, flat_map_app, app_length, IH by lia. cbn [flat_map Nat.add]. rewrite app_nil_r.
    unfold block. rewrite app_length. destruct ig; cbn [negb length]; [lia|]. rewrite pairs_len, mol_len by lia. lia. }
  rewrite G by lia. unfold bru_jac_nnz. fold s. destruct ig; lia.
Qed.
Lemma puts_stored ig aa yy : Forall (stored (2 * s) SymNo) (bru_puts px py molecule np ig aa yy).
Proof.
  rewrite puts_blocks. apply Forall_flat_map. apply Forall_forall. intros m Hm. apply in_seq in Hm. unfold block. apply Forall_app. split.
  - repeat (constructor; [unfold stored, row_of, col_of; cbn [fst snd in_triangle]; splits; auto; lia|]). constructor.
  - destruct ig; cbn [negb]; [constructor|]. apply Forall_flat_map. apply Forall_forall. intros [k a] Hk. apply mol_lt in Hk; [|lia].
    repeat (constructor; [unfold stored, row_of, col_of; cbn [fst snd in_triangle]; splits; auto; lia|]). constructor.
Qed.
Lemma pairs_sum_u (l : list (nat * R)) m aa i j : (i < s)%nat -> lsum (flat_map (fun '(n, amn) => [(m, n, aa * amn); ((s + m)%nat, (s + n)%nat, aa * amn)]) l) i j = dl m i * aa * msum l 0 j.
Proof.
  intros Hi. induction l as [|[k a] l IH]; [cbn; ring|]. cbn [flat_map app lsum msum]. rewrite IH. unfold at_pos, row_of, col_of, val_of, dl. cbn [fst snd Nat.add].
  destruct (Nat.eqb_spec (s + m) i); [lia|]. cbn [andb]. destruct (m =? i)%nat, (k =? j)%nat; cbn [andb]; ring.
Qed.
Lemma pairs_sum_v (l : list (nat * R)) m aa i j : (m < s)%nat -> lsum (flat_map (fun '(n, amn) => [(m, n, aa * amn); ((s + m)%nat, (s + n)%nat, aa * amn)]) l) (s + i) j = dl m i * aa * msum l s j.
Proof.
  intros Hi. induction l as [|[k a] l IH]; [cbn; ring|]. cbn [flat_map app lsum msum]. rewrite IH. unfold at_pos, row_of, col_of, val_of, dl. cbn [fst snd].
  destruct (Nat.eqb_spec m (s + i)); [lia|]. cbn [andb]. destruct (Nat.eqb_spec (s + m) (s + i)), (Nat.eqb_spec m i); try lia; destruct (s + k =? j)%nat; cbn [andb]; ring.
Qed.
Lemma entry_u ig aa yy i j : (i < s)%nat -> lsum (bru_puts px py molecule np ig aa yy) i j =
  aa * (((-4.4 + 2 * yy i * yy (s + i)%nat) * dl i j + yy i * yy i * dl (s + i) j) + (if ig then 0 else msum (bru_mol px py molecule np i) 0 j)).
Proof.
  intros Hi. rewrite puts_blocks, lsum_flat. rewrite (sumn_single s _ i Hi).
  - unfold block. rewrite lsum_app. destruct ig; cbn [negb]; [cbn [lsum]|rewrite pairs_sum_u by auto; replace (dl i i) with 1 by (unfold dl; now rewrite Nat.eqb_refl); cbn [lsum]];
      unfold at_pos, row_of, col_of, val_of, dl; cbn [fst snd]; rewrite Nat.eqb_refl; destruct (Nat.eqb_spec (s + i) i); try lia; cbn [andb];
      destruct (i =? j)%nat, (s + i =? j)%nat; ring.
  - intros m Hm Hne. unfold block. rewrite lsum_app. destruct ig; cbn [negb]; [cbn [lsum]|rewrite pairs_sum_u by auto; unfold dl; destruct (Nat.eqb_spec m i); [lia|]; cbn [lsum]];
      unfold at_pos, row_of, col_of, val_of; cbn [fst snd]; destruct (Nat.eqb_spec m i); try lia; destruct (Nat.eqb_spec (s + m) i); try lia; cbn [andb]; ring.
Qed.
Lemma entry_v ig aa yy i j : (i < s)%nat -> lsum (bru_puts px py molecule np ig aa yy) (s + i) j =
  aa * (((3.4 - 2 * yy i * yy (s + i)%nat) * dl i j - yy i * yy i * dl (s + i) j) + (if ig then 0 else msum (bru_mol px py molecule np i) s j)).
Proof.
  intros Hi. rewrite puts_blocks, lsum_flat. rewrite (sumn_single s _ i Hi).
  - unfold block. rewrite lsum_app. destruct ig; cbn [negb]; [cbn [lsum]|rewrite pairs_sum_v by auto; replace (dl i i) with 1 by (unfold dl; now rewrite Nat.eqb_refl); cbn [lsum]];
      unfold at_pos, row_of, col_of, val_of, dl; cbn [fst snd]; rewrite Nat.eqb_refl; destruct (Nat.eqb_spec i (s + i)); try lia; cbn [andb];
      destruct (i =? j)%nat, (s + i =? j)%nat; ring.
  - intros m Hm Hne. unfold block. rewrite lsum_app. destruct ig; cbn [negb]; [cbn [lsum]|rewrite pairs_sum_v by auto; unfold dl; destruct (Nat.eqb_spec m i); [lia|]; cbn [lsum]];
      unfold at_pos, row_of, col_of, val_of; cbn [fst snd]; destruct (Nat.eqb_spec m (s + i)); try lia; destruct (Nat.eqb_spec (s + m) (s + i)); try lia; cbn [andb]; ring.
Qed.

Ltac real_eq := match goal with |- @eq _ ?a ?b => change (@eq R a b) end.
Lemma index_cases i : (i < 2 * s)%nat -> (i < s)%nat \/ exists m, (m < s)%nat /\ i = (s + m)%nat.
Proof. intros H. destruct (Nat.lt_ge_cases i s); [auto|]. right. exists (i - s)%nat. lia. Qed.
Lemma f_u sb ig t m : (m < s)%nat -> exists c, forall z : vec, bru_f px py molecule coord np sb ig t z m =
  (if ig then 1 - 4.4 * z m + z m * z m * z (s + m)%nat else fold_left (fun f '(k, a) => f + a * z (0 + k)%nat) (bru_mol px py molecule np m) (1 - 4.4 * z m + z m * z m * z (s + m)%nat)) + c.
Proof.
  intros Hm. exists (if sb then if Rleb 1.1 t then if Rleb ((fst (coord m) - 0.3) * (fst (coord m) - 0.3) + (snd (coord m) - 0.6) * (snd (coord m) - 0.6)) 0.01 then 5 else 0 else 0 else 0).
  intros z. unfold bru_f. fold s. destruct (Nat.ltb_spec m s); [|lia]. cbn [Nat.add]. destruct ig, sb; cbn [negb]; try ring; destruct (Rleb 1.1 t); ring.
Qed.
Lemma f_v sb ig t m : (m < s)%nat -> forall z : vec, bru_f px py molecule coord np sb ig t z (s + m) =
  (if ig then 3.4 * z m - z m * z m * z (s + m)%nat else fold_left (fun f '(k, a) => f + a * z (s + k)%nat) (bru_mol px py molecule np m) (3.4 * z m - z m * z m * z (s + m)%nat)).
Proof.
  intros Hm z. unfold bru_f. fold s. destruct (Nat.ltb_spec (s + m) s); [lia|]. replace (s + m - s)%nat with m by lia. destruct ig; reflexivity.
Qed.

(** the Jacobian of the discretised Brusselator, for every grid with at least two
    points along each side, every molecule with five entries and both kinds of
    boundary conditions; the declared number of non-zeros is exact *)
Theorem C89_brusselator_pde sb ig aa t yy :
  (exists u, bru_sys np ig = Ok u /\ sy_ndim u = (2 * (np * np))%nat /\ sy_jac_nnz u = bru_jac_nnz np ig /\ sy_symmetric u = SymNo) /\
  jacobian_of (2 * (np * np)) (bru_jac_nnz np ig) SymNo (bru_jac px py molecule np ig aa yy) aa
    (bru_f px py molecule coord np sb ig t) yy.
Proof.
  split; [unfold bru_sys, with_jac; cbn [unwrap_mut sys_set_jacobian sys_new sy_sym_mass]; eexists; split; [reflexivity|repeat split]|].
  fold s. assert (J : jacobian_of (2 * s) (bru_jac_nnz np ig) SymNo (run_jac (bru_puts px py molecule np ig aa yy)) aa (bru_f px py molecule coord np sb ig t) yy).
  { apply puts_jacobian; [now rewrite puts_len|apply puts_stored|].
    intros i j Hi Hj. rewrite expand_full by reflexivity. rewrite entry_lsum.
    destruct (index_cases i Hi) as [Hm|(m & Hm & ->)].
    - destruct (f_u sb ig t i Hm) as (c & Hf).
      exists (((-4.4 + 2 * yy i * yy (s + i)%nat) * dl i j + yy i * yy i * dl (s + i) j) + (if ig then 0 else msum (bru_mol px py molecule np i) 0 j)).
      split; [|now apply entry_u].
      apply (is_derive_ext (fun t' : R => (if ig then 1 - 4.4 * set_at yy j t' i + set_at yy j t' i * set_at yy j t' i * set_at yy j t' (s + i)%nat else fold_left (fun f '(k, a) => f + a * set_at yy j t' (0 + k)%nat) (bru_mol px py molecule np i) (1 - 4.4 * set_at yy j t' i + set_at yy j t' i * set_at yy j t' i * set_at yy j t' (s + i)%nat)) + c)); [intros z; symmetry; apply Hf|].
      assert (D : is_derive (fun t' : R => 1 - 4.4 * set_at yy j t' i + set_at yy j t' i * set_at yy j t' i * set_at yy j t' (s + i)%nat) (yy j) ((-4.4 + 2 * yy i * yy (s + i)%nat) * dl i j + yy i * yy i * dl (s + i) j)).
      { eapply is_derive_ext; [|replace ((-4.4 + 2 * yy i * yy (s + i)%nat) * dl i j + yy i * yy i * dl (s + i) j) with ((-4.4 + 2 * 1 * yy i * yy (s + i)%nat) * dl i j + 1 * (yy i * yy i) * dl (s + i) j) by ring; apply (react_derive 1 (-4.4) 1)]. intros z. cbv beta. real_eq. lra. }
      match goal with |- is_derive _ _ ?d => replace d with (d + 0) by ring end.
      refine (is_derive_plus (K := R_AbsRing) (V := R_NormedModule) _ (fun _ => c) (yy j) _ _ _ _); [|auto_derive; auto].
      destruct ig; [rewrite Rplus_0_r; exact D|]. exact (mol_derive _ 0 yy j _ _ D).
    - exists (((3.4 - 2 * yy m * yy (s + m)%nat) * dl m j - yy m * yy m * dl (s + m) j) + (if ig then 0 else msum (bru_mol px py molecule np m) s j)).
      split; [|now apply entry_v].
      eapply is_derive_ext; [intros z; symmetry; apply (f_v sb ig t m Hm)|].
      assert (D : is_derive (fun t' : R => 3.4 * set_at yy j t' m - set_at yy j t' m * set_at yy j t' m * set_at yy j t' (s + m)%nat) (yy j) ((3.4 - 2 * yy m * yy (s + m)%nat) * dl m j - yy m * yy m * dl (s + m) j)).
      { eapply is_derive_ext; [|replace ((3.4 - 2 * yy m * yy (s + m)%nat) * dl m j - yy m * yy m * dl (s + m) j) with ((3.4 + 2 * (-1) * yy m * yy (s + m)%nat) * dl m j + (-1) * (yy m * yy m) * dl (s + m) j) by ring; apply (react_derive 0 3.4 (-1))]. intros z. cbv beta. real_eq. ring. }
      destruct ig; [rewrite Rplus_0_r; exact D|]. exact (mol_derive _ s yy j _ _ D). }
  intros a V Er Ec Es Cap. destruct (J a V Er Ec Es Cap) as (a' & D & E & V' & S' & X' & ED & G). exists a', D. splits; auto.
  unfold bru_jac. rewrite E. cbn [bind]. rewrite puts_len, Nat.eqb_refl. reflexivity.
Qed.
End Bru.

(** the right-hand side with the molecule of an `Fdm2d` with kx = ky = - alpha: the
    reaction terms plus alpha times the five-point Laplacian *)
Theorem C89_brusselator_rhs px py coord np (alpha dx dy : R) sb ig t yy i j : (2 <= np)%nat -> (i < np)%nat -> (j < np)%nat -> dx <> 0 -> dy <> 0 ->
  let molecule := [2 * (- alpha / (dx * dx) + - alpha / (dy * dy)); - (- alpha) / (dx * dx); - (- alpha) / (dx * dx); - (- alpha) / (dy * dy); - (- alpha) / (dy * dy)] in
  let s := (np * np)%nat in let at_ := fun off i j => yy (off + (i + j * np))%nat in
  let laplacian := fun off =>
    (at_ off (left_of px np i) j - 2 * at_ off i j + at_ off (right_of px np i) j) / (dx * dx) +
    (at_ off i (left_of py np j) - 2 * at_ off i j + at_ off i (right_of py np j)) / (dy * dy) in
  let u := at_ 0%nat i j in let v := at_ s i j in let m := (i + j * np)%nat in
  let f := bru_f px py molecule coord np sb ig t yy in
  f m = 1 - 4.4 * u + u * u * v + (if ig then 0 else alpha * laplacian 0%nat) +
    (if sb then if Rleb 1.1 t then if Rleb ((fst (coord m) - 0.3) * (fst (coord m) - 0.3) + (snd (coord m) - 0.6) * (snd (coord m) - 0.6)) 0.01 then 5 else 0 else 0 else 0) /\
  f (s + m)%nat = 3.4 * u - u * u * v + (if ig then 0 else alpha * laplacian s).
Proof.
  intros Hn Hi Hj Hx Hy molecule s at_ laplacian u v m f.
  assert (Hm : (m < s)%nat) by (unfold m, s; nia).
  unfold f, bru_f. fold s. destruct (Nat.ltb_spec m s); [|lia]. destruct (Nat.ltb_spec (s + m) s); [lia|]. replace (s + m - s)%nat with m by lia.
  unfold bru_mol, m. rewrite (nbrs2_spec px py np np i j Hn Hn Hi Hj). unfold molecule. cbn [combine fold_left].
  unfold laplacian, u, v, at_. cbn [Nat.add]. split; destruct ig, sb; cbn [negb]; try (destruct (Rleb 1.1 t)); field; auto.
Qed.

(** the solver that `brusselator_pde` allocates (kx = ky = - alpha on the unit
    square): it exists for every npoint >= 2 and has the molecule and the
    periodicity used above *)
Theorem C89_brusselator_alloc tol alpha np (second_book : bool) : 0 <= tol -> (2 <= np)%nat ->
  let hist := if second_book then [Bcs_Thm.OpPeriodic (R -> R -> R) true true] else [] in
  let hn := if second_book then [] else map (fun s => (s, fun _ _ : R => 0)) [Grid_Model.Xmin; Grid_Model.Xmax; Grid_Model.Ymin; Grid_Model.Ymax] in
  let h := 1 / INR (np - 1) in let fx := fun i => 0 + INR i * h in
  exists grid f, Grid_Model.grid2_new_uniform R Rplus Rminus Rmult Rdiv INR Rleb 0 1 0 1 np np = Ok grid /\
    Fdm_Thm.solver2 tol f hist hn grid np np fx fx (- alpha) (- alpha) /\ 0 < h /\
    f2_mol R f = [2 * (- alpha / (h * h) + - alpha / (h * h)); - (- alpha) / (h * h); - (- alpha) / (h * h); - (- alpha) / (h * h); - (- alpha) / (h * h)] /\
    Bcs_Model.e2_px _ (f2_e R f) = second_book /\ Bcs_Model.e2_py _ (f2_e R f) = second_book.
Proof.
  intros Ht Hn hist hn h fx.
  destruct (Fdm_Exists.C45_fdm2_total_uniform tol Ht 0 1 0 1 np np hist hn (- alpha) (- alpha) Hn Hn ltac:(lra) ltac:(lra)) as (grid & f & G & S & DX & DY).
  replace ((1 - 0) / INR (np - 1)) with h in S, DX, DY by (unfold h; f_equal; ring). exists grid, f.
  assert (0 < h) by (apply Rdiv_lt_0_compat; [lra|apply lt_0_INR; lia]).
  pose proof S as (_ & n & _ & H0).
  destruct (Fdm_Cap.fdm2_from_inv _ _ _ _ _ _ _ _ _ _ _ f _ _ _ _ _ _ _ _ _ H0) as (p & dx & dy & _ & _ & _ & _ & _ & _ & M & EX & EY & _ & PX & PY).
  splits; auto; [rewrite M, <- EX, <- EY, DX, DY; reflexivity|rewrite PX|rewrite PY]; unfold hist; destruct second_book; reflexivity.
Qed.

(** the hypotheses are met: a matrix as a solver allocates it *)
Example C89_example : exists a, coo_new R 0 2 2 4 SymNo = Ok a /\ coo_valid a /\ exists a' D, run_jac (sa_jac brusselator_ode 1 0 (sa_y0 brusselator_ode)) a = Ok a' /\
  coo_as_dense R 0 Rplus a' = Ok D /\ d_get D 0 0 = Ok 5 /\ d_get D 1 1 = Ok (-9/4).
Proof.
  eexists. split; [reflexivity|].
  match goal with |- coo_valid ?a /\ _ => set (a0 := a) end.
  assert (V : coo_valid a0) by (refine (proj1 (Sparse_CooProofs.coo_new_valid R 0 2 2 4 SymNo a0 eq_refl))). split; [exact V|].
  destruct (C89_brusselator_ode 1 0 (sa_y0 brusselator_ode)) as (_ & J). destruct (J a0 V) as (a' & D & E & _ & _ & _ & ED & G); try reflexivity.
  exists a', D. splits; auto.
  - destruct (G 0%nat 0%nat) as (d & Hd & ->); try lia. f_equal. apply is_derive_unique in Hd. rewrite <- Hd, Rmult_1_l. apply is_derive_unique. cbn. auto_derive; auto. cbn. lra.
  - destruct (G 1%nat 1%nat) as (d & Hd & ->); try lia. f_equal. apply is_derive_unique in Hd. rewrite <- Hd, Rmult_1_l. apply is_derive_unique. cbn. auto_derive; auto. cbn. lra.
Qed.

Print Assumptions C89_simple_equation_constant.
Print Assumptions C89_simple_system_with_mass_matrix.
Print Assumptions C89_brusselator_ode.
Print Assumptions C89_hairer_wanner_eq1.
Print Assumptions C89_robertson.
Print Assumptions C89_van_der_pol.
Print Assumptions C89_amplifier1t.
Print Assumptions C89_kreyszig_eq6.
Print Assumptions C89_kreyszig_ex4.
Print Assumptions C89_arenstorf.
Print Assumptions C89_mass_simple.
Print Assumptions C89_mass_amplifier1t.
Print Assumptions C89_amplifier1t_consistent.
Print Assumptions C89_solution_simple_constant.
Print Assumptions C89_solution_mass.
Print Assumptions C89_solution_hairer_wanner.
Print Assumptions C89_solution_kreyszig_eq6.
Print Assumptions C89_solution_kreyszig_ex4.
Print Assumptions C89_config.
Print Assumptions C89_set_jacobian.
Print Assumptions C89_set_mass.
Print Assumptions C89_default_nnz.
Print Assumptions C89_brusselator_pde.
Print Assumptions C89_brusselator_rhs.
Print Assumptions C89_brusselator_alloc.
