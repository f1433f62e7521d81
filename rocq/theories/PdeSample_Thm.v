(** C93: the analytical solutions of the sample boundary-value problems solve them. *)
From Coq Require Import Reals Ascii String List Lia Lra.
From Coquelicot Require Import Coquelicot.
From Verif Require Import Base RBase Grid_Model Bcs_Model Transfinite_Model Transfinite_Thm TfSample_Model TfSample_Thm PdeSample_Model.
Import ListNotations.
Open Scope R_scope.

(** * Specification *)

(** [f'] is the derivative of [f] *)
Definition D1 (f f' : R -> R) : Prop := forall x, derivable_pt_lim f x (f' x).
(** the condition set on side number [i], if any *)
Definition set_on {F} (fs : list F) (ss : list bool) (i : nat) (f : F) : Prop :=
  nth_error ss i = Some true /\ nth_error fs i = Some f.

(** the function [analytical] of a 1D problem solves  - kx phi'' + alpha phi = source  with its boundary
    conditions: phi is given on the sides with an essential condition, the flux  - kx phi' n  (n the outward
    normal) on the sides with a natural one; every side has exactly one condition; the flow returned is  - kx phi' *)
Definition solves_1d (p : prob1) (alpha : R) : Prop :=
  let phi := p1_analytical p in
  p1_xmin p < p1_xmax p /\
  ebc1_validate fn1 (p1_ebcs p) (p1_nbcs p) = Ok tt /\ e1_px fn1 (p1_ebcs p) = false /\
  exists phi' phi'', D1 phi phi' /\ D1 phi' phi'' /\
    (forall x, - p1_kx p * phi'' x + alpha * phi x = p1_source p x) /\
    (forall i x n, (i, x, n) = (0%nat, p1_xmin p, -1) \/ (i, x, n) = (1%nat, p1_xmax p, 1) ->
       (forall f, set_on (e1_fun fn1 (p1_ebcs p)) (e1_sides fn1 (p1_ebcs p)) i f -> f x = phi x) /\
       (forall f, set_on (n_fun fn1 (p1_nbcs p)) (n_sides fn1 (p1_nbcs p)) i f -> f x = - p1_kx p * phi' x * n)) /\
    (forall w, p1_flow p = Some w -> forall x, w x = - p1_kx p * phi' x).

(** partial derivatives on a set of points *)
Definition Dx_on (A : R -> R -> Prop) (f g : fn2) : Prop := forall x y, A x y -> derivable_pt_lim (fun x => f x y) x (g x y).
Definition Dy_on (A : R -> R -> Prop) (f g : fn2) : Prop := forall x y, A x y -> derivable_pt_lim (fun y => f x y) y (g x y).
Definition everywhere : R -> R -> Prop := fun _ _ => True.

(** sides of a rectangle: number, points, outward normal *)
Definition on_side (p : prob2) (i : nat) (x y nx ny : R) : Prop :=
  (i = 0%nat /\ x = p2_xmin p /\ p2_ymin p <= y <= p2_ymax p /\ nx = -1 /\ ny = 0) \/
  (i = 1%nat /\ x = p2_xmax p /\ p2_ymin p <= y <= p2_ymax p /\ nx = 1 /\ ny = 0) \/
  (i = 2%nat /\ y = p2_ymin p /\ p2_xmin p <= x <= p2_xmax p /\ nx = 0 /\ ny = -1) \/
  (i = 3%nat /\ y = p2_ymax p /\ p2_xmin p <= x <= p2_xmax p /\ nx = 0 /\ ny = 1).

(** the same for  - kx phi_xx - ky phi_yy + alpha phi = source  on a rectangle; [but] lists the sides whose
    conditions are left out of the claim *)
Definition solves_2d_but (but : list nat) (p : prob2) (alpha : R) : Prop :=
  let phi := p2_analytical p in
  p2_xmin p < p2_xmax p /\ p2_ymin p < p2_ymax p /\
  ebc2_validate fn2 (p2_ebcs p) (p2_nbcs p) = Ok tt /\ e2_px fn2 (p2_ebcs p) = false /\ e2_py fn2 (p2_ebcs p) = false /\
  exists px py pxx pyy, Dx_on everywhere phi px /\ Dy_on everywhere phi py /\ Dx_on everywhere px pxx /\ Dy_on everywhere py pyy /\
    (forall x y, - p2_kx p * pxx x y - p2_ky p * pyy x y + alpha * phi x y = p2_source p x y) /\
    (forall i x y nx ny, ~ In i but -> on_side p i x y nx ny ->
       (forall f, set_on (e2_fun fn2 (p2_ebcs p)) (e2_sides fn2 (p2_ebcs p)) i f -> f x y = phi x y) /\
       (forall f, set_on (n_fun fn2 (p2_nbcs p)) (n_sides fn2 (p2_nbcs p)) i f ->
          f x y = (- p2_kx p * px x y) * nx + (- p2_ky p * py x y) * ny)) /\
    (forall w, p2_flow p = Some w -> forall x y, w x y = (- p2_kx p * px x y, - p2_ky p * py x y)).
Definition solves_2d := solves_2d_but [].

(** sides of a mapped domain: the image of an edge of the reference square; (nx, ny) is a unit vector
    normal to the edge that points away from the domain *)
Definition on_mapped_side (g : tf2) (i : nat) (x y nx ny : R) : Prop :=
  nx ^ 2 + ny ^ 2 = 1 /\
  exists r s, -1 <= r <= 1 /\ -1 <= s <= 1 /\ tf2_point g r s = (x, y) /\
  let '(_, (xr, yr), (xs, ys), _) := tf2_point_and_derivs g false r s in
  match i with
  | 0%nat => r = -1 /\ nx * xs + ny * ys = 0 /\ nx * xr + ny * yr < 0
  | 1%nat => r = 1 /\ nx * xs + ny * ys = 0 /\ 0 < nx * xr + ny * yr
  | 2%nat => s = -1 /\ nx * xr + ny * yr = 0 /\ nx * xs + ny * ys < 0
  | 3%nat => s = 1 /\ nx * xr + ny * yr = 0 /\ 0 < nx * xs + ny * ys
  | _ => False
  end.
Definition image (g : tf2) (x y : R) : Prop := exists r s, -1 <= r <= 1 /\ -1 <= s <= 1 /\ tf2_point g r s = (x, y).

Definition solves_mapped (p : prob_map) : Prop :=
  let phi := pm_analytical p in let A := image (pm_map p) in
  ebc2_validate fn2 (pm_ebcs p) (pm_nbcs p) = Ok tt /\ e2_px fn2 (pm_ebcs p) = false /\ e2_py fn2 (pm_ebcs p) = false /\
  exists px py pxx pyy, Dx_on A phi px /\ Dy_on A phi py /\ Dx_on A px pxx /\ Dy_on A py pyy /\
    (forall x y, A x y -> - pm_k p * (pxx x y + pyy x y) = pm_source p x y) /\
    (forall i x y nx ny, on_mapped_side (pm_map p) i x y nx ny ->
       (forall f, set_on (e2_fun fn2 (pm_ebcs p)) (e2_sides fn2 (pm_ebcs p)) i f -> f x y = phi x y) /\
       (forall f, set_on (n_fun fn2 (pm_nbcs p)) (n_sides fn2 (pm_nbcs p)) i f ->
          f x y = - pm_k p * (px x y * nx + py x y * ny))).

(** * Tools *)
Ltac deq := match goal with |- @eq _ ?a ?b => change (@eq R a b) end.
Ltac dd := intros; apply is_derive_Reals; cbv beta; auto_derive; [auto|deq; unfold Rminus, Rdiv].
(* the side conditions of a 1D problem *)
Ltac sides1 tac := 
  intros i x n [E|E]; injection E as -> -> ->; split; intros f [H1 H2]; cbn in H1, H2;
  first [discriminate H1 | injection H2 as <-; cbv beta; tac].
Ltac sides2 tac :=
  intros i x y nx ny _ [(-> & -> & H & -> & ->)|[(-> & -> & H & -> & ->)|[(-> & -> & H & -> & ->)|(-> & -> & H & -> & ->)]]]; cbn in H;
  cbn [p2_xmin p2_xmax p2_ymin p2_ymax]; split; intros f [H1 H2]; cbn in H1, H2; first [discriminate H1 | injection H2 as <-; cbv beta; tac].

Theorem C93_d1_problem_01 : exists p, d1_problem_01 = Ok p /\ solves_1d p (p1_alpha p).
Proof.
  eexists. split; [reflexivity|]. unfold solves_1d; cbn. splits; [lra|reflexivity|reflexivity|].
  exists (fun x => (1 - 3 * x ^ 2) / 6), (fun x => - x). splits.
  - intros x. dd. field.
  - intros x. dd. field.
  - intros x. field.
  - sides1 ltac:(unfold no1; field).
  - intros w [= <-] x. field.
Qed.

Theorem C93_d1_problem_02 : exists p, d1_problem_02 = Ok p /\ solves_1d p (p1_alpha p).
Proof.
  eexists. split; [reflexivity|]. unfold solves_1d; cbn. splits; [lra|reflexivity|reflexivity|].
  set (K := 0.01571). set (L := 0.05). assert (HK : 0 < K) by (unfold K; lra). assert (HL : 0 < L) by (unfold L; lra). clearbody K L.
  set (m := sqrt (2 * PI / K)). set (c := cosh (m * L)).
  assert (M : m * m = 2 * PI / K).
  { unfold m. rewrite sqrt_sqrt; [reflexivity|]. pose proof PI_RGT_0. apply Rmult_le_pos; [lra|]. left. apply Rinv_0_lt_compat. lra. }
  assert (C : 0 < c). { unfold c, cosh. pose proof (exp_pos (m * L)). pose proof (exp_pos (- (m * L))). lra. }
  exists (fun x => - (320 - 20) * m * sinh (m * (L - x)) / c), (fun x => (320 - 20) * (m * m) * cosh (m * (L - x)) / c). splits.
  - intros x. unfold cosh, sinh. dd. field. lra.
  - intros x. unfold cosh, sinh. dd. field. lra.
  - intros x. rewrite M. field. lra.
  - sides1 idtac.
    + rewrite Rminus_0_r. fold c. field. lra.
    + replace (m * (L - L)) with 0 by lra. rewrite sinh_0. field. lra.
  - intros w [=].
Qed.

Theorem C93_d1_problem_03 : exists p, d1_problem_03 = Ok p /\ solves_1d p (p1_alpha p).
Proof.
  eexists. split; [reflexivity|]. unfold solves_1d; cbn. splits; [lra|reflexivity|reflexivity|].
  assert (C : 0 < cosh 1). { unfold cosh. pose proof (exp_pos 1). pose proof (exp_pos (- (1))). lra. }
  exists (fun x => cosh x / cosh 1 + 2 * x), (fun x => sinh x / cosh 1 + 2). splits.
  - intros x. set (c := cosh 1) in *. unfold cosh, sinh. clearbody c. dd. field. lra.
  - intros x. set (c := cosh 1) in *. unfold cosh, sinh. clearbody c. dd. field. lra.
  - intros x. ring.
  - sides1 idtac.
    + rewrite sinh_0. field. lra.
    + field. lra.
  - intros w [=].
Qed.

Lemma exp_neg_mul a : exp (- a) * exp a = 1.
Proof. rewrite <- exp_plus. replace (- a + a) with 0 by ring. apply exp_0. Qed.

Theorem C93_d1_problem_04a : exists p, d1_problem_04a = Ok p /\ solves_1d p (p1_alpha p).
Proof.
  eexists. split; [reflexivity|]. unfold solves_1d; cbn. splits; [lra|reflexivity|reflexivity|].
  exists (fun x => (4 * exp (4 * x) - sinh 4) / 16), (fun x => exp (4 * x)). splits.
  - intros x. dd. field.
  - intros x. dd. field.
  - intros x. ring.
  - sides1 ltac:(unfold no1, sinh, cosh); [replace (4 * -1) with (- (4)) by ring|replace (4 * 1) with 4 by ring]; field.
  - intros w [=].
Qed.

Theorem C93_d1_problem_04b : exists p, d1_problem_04b = Ok p /\ solves_1d p (p1_alpha p).
Proof.
  eexists. split; [reflexivity|]. unfold solves_1d; cbn. splits; [lra|reflexivity|reflexivity|].
  exists (fun x => (4 * exp (4 * x) - 4 * exp (-4)) / 16), (fun x => exp (4 * x)). splits.
  - intros x. dd. field.
  - intros x. dd. field.
  - intros x. ring.
  - sides1 idtac; [replace (4 * -1) with (-4) by ring|replace (4 * 1) with 4 by ring]; field.
  - intros w [=].
Qed.

(** the equation is  phi'' + beta^2 phi = 0, that is  - kx phi'' + beta^2 phi = 0  with kx = -1 *)
Theorem C93_d1_problem_05 : forall beta ll g0 phi_ll, beta <> 0 -> 0 < ll -> cos (beta * ll) <> 0 ->
  exists p, d1_problem_05 beta ll g0 phi_ll = Ok p /\ solves_1d p (beta ^ 2).
Proof.
  intros beta ll g0 phi_ll B L C. eexists. split; [reflexivity|]. unfold solves_1d; cbn. splits; [lra|reflexivity|reflexivity|].
  set (c1 := g0 / beta). set (c2 := (phi_ll - c1 * sin (beta * ll)) / cos (beta * ll)).
  exists (fun x => beta * (c1 * cos (beta * x) - c2 * sin (beta * x))), (fun x => - beta ^ 2 * (c1 * sin (beta * x) + c2 * cos (beta * x))). splits.
  - intros x. dd. ring.
  - intros x. dd. ring.
  - intros x. ring.
  - sides1 idtac.
    + rewrite Rmult_0_r, cos_0, sin_0. unfold c1. field. lra.
    + unfold c2. field. lra.
  - intros w [= <-] x. replace (beta * (ll - x)) with (beta * ll - beta * x) by ring. rewrite cos_minus. unfold c2, c1. field. lra.
Qed.

(** without the condition the problem has no such solution: the quarter wave *)
Example C93_d1_05_example : cos (1 * 1) <> 0.
Proof. rewrite Rmult_1_r. pose proof (cos_gt_0 1). pose proof PI2_1. lra. Qed.

Theorem C93_d2_problem_01 : forall case_a, exists p, d2_problem_01 case_a = Ok p /\ solves_2d p 0.
Proof.
  intros [|]; eexists; (split; [reflexivity|]); unfold solves_2d, solves_2d_but; cbn; (splits; [lra|lra|reflexivity|reflexivity|reflexivity|]);
  exists (fun x y => exp (x - y) * (x * x + x - 1) * (y - 1) * y), (fun x y => exp (x - y) * (y * y - 3 * y + 1) * (1 - x) * x),
    (fun x y => exp (x - y) * (x * x + 3 * x) * (y - 1) * y), (fun x y => exp (x - y) * (- y * y + 5 * y - 4) * (1 - x) * x); splits.
  all: try (intros x y _; dd; ring).
  all: try (intros x y; ring).
  all: try (intros w [= <-] x y; f_equal; ring).
  - sides2 ltac:(unfold no2; ring).
  - sides2 idtac; try (unfold Rminus; rewrite ?Rplus_0_l, ?Ropp_0, ?Rplus_0_r; ring).
Qed.

Theorem C93_d2_problem_02 : exists p, d2_problem_02 = Ok p /\ solves_2d p 0.
Proof.
  eexists; (split; [reflexivity|]); unfold solves_2d, solves_2d_but; cbn; (splits; [lra|lra|reflexivity|reflexivity|reflexivity|]).
  exists (fun x y => y * PI * cos (PI * x)), (fun x y => sin (PI * x)), (fun x y => - y * PI * PI * sin (PI * x)), (fun x y => 0). splits.
  1-4: intros x y _; dd; ring.
  - intros x y. ring.
  - sides2 idtac; rewrite ?Rmult_0_r, ?Rmult_1_r, ?sin_0, ?sin_PI; ring.
  - intros w [=].
Qed.

(** sides in the order of the keyword: right, top, left, bottom *)
Definition key_of (i : nat) : nat := nth i [2; 0; 3; 1]%nat 0%nat.
Definition combos : list string := ["NNDD"; "NDND"; "DNND"; "DDNN"; "DDDD"]%string.

Theorem C93_d2_problem_03 : forall k alpha combo,
  (In combo combos -> exists p, d2_problem_03 k alpha combo = Ok p /\ solves_2d p alpha /\
     forall i, (i < 4)%nat -> nth i (e2_sides fn2 (p2_ebcs p)) false = true <-> String.get (key_of i) combo = Some "D"%char) /\
  (~ In combo combos -> d2_problem_03 k alpha combo = Panic).
Proof.
  intros k alpha combo. split.
  2: { intros H. unfold d2_problem_03. replace (existsb _ _) with false; [reflexivity|]. symmetry. apply Bool.not_true_is_false. intros E.
    apply existsb_exists in E. destruct E as (c & C & E). apply String.eqb_eq in E. subst c. now apply H. }
  intros H. repeat (destruct H as [<-|H]; [|]); [..|destruct H].
    all: eexists; (split; [reflexivity|]); split;
      [|intros i Hi; destruct i as [|[|[|[|i]]]]; try lia; cbn; split; congruence].
    all: unfold solves_2d, solves_2d_but; cbn; (splits; [lra|lra|reflexivity|reflexivity|reflexivity|]).
    all: exists (fun x y => 2 * PI * cos (2 * PI * x) * cos (2 * PI * y)), (fun x y => - 2 * PI * sin (2 * PI * x) * sin (2 * PI * y)),
      (fun x y => - (2 * PI) ^ 2 * sin (2 * PI * x) * cos (2 * PI * y)), (fun x y => - (2 * PI) ^ 2 * sin (2 * PI * x) * cos (2 * PI * y)).
    all: splits.
    all: try (intros x y _; dd; ring).
    all: try (intros x y; ring).
    all: try (intros w [= <-] x y; f_equal; ring).
    all: sides2 ltac:(rewrite ?Rmult_0_r, ?Rmult_1_r, ?sin_2PI, ?cos_2PI, ?sin_0, ?cos_0; ring).
Qed.

Theorem C93_d2_problem_05 : exists p, d2_problem_05 = Ok p /\ solves_2d p 0.
Proof.
  eexists; (split; [reflexivity|]); unfold solves_2d, solves_2d_but; cbn; (splits; [lra|lra|reflexivity|reflexivity|reflexivity|]).
  exists (fun x y => 3 * x ^ 2), (fun x y => 0), (fun x y => 6 * x), (fun x y => 0). splits.
  1-4: intros x y _; dd; ring.
  - intros x y. ring.
  - sides2 ltac:(ring).
  - intros w [=].
Qed.

Theorem C93_d2_problem_07 : exists p, d2_problem_07 = Ok p /\ solves_2d p 0.
Proof.
  eexists; (split; [reflexivity|]); unfold solves_2d, solves_2d_but; cbn; (splits; [lra|lra|reflexivity|reflexivity|reflexivity|]).
  exists (fun x y => - 2 * PI * sin (2 * PI * x) * sin (2 * PI * y)), (fun x y => 2 * PI * cos (2 * PI * x) * cos (2 * PI * y)),
    (fun x y => - (2 * PI) ^ 2 * cos (2 * PI * x) * sin (2 * PI * y)), (fun x y => - (2 * PI) ^ 2 * cos (2 * PI * x) * sin (2 * PI * y)). splits.
  1-4: intros x y _; dd; ring.
  - intros x y. ring.
  - sides2 ltac:(replace (2 * PI * -1) with (- (2 * PI)) by ring; rewrite ?Rmult_1_r, ?sin_neg, ?cos_neg, ?sin_2PI, ?cos_2PI; ring).
  - intros w [=].
Qed.

(** ** tanh *)
Lemma cosh_pos u : 0 < cosh u.
Proof. unfold cosh. pose proof (exp_pos u). pose proof (exp_pos (- u)). lra. Qed.
Lemma tanh_neg u : tanh (- u) = - tanh u.
Proof. unfold tanh, sinh, cosh. rewrite Ropp_involutive. pose proof (exp_pos u). pose proof (exp_pos (- u)). field. lra. Qed.
Lemma exp_sum_ne e : 0 < e -> e * e + 1 <> 0. Proof. intros. nra. Qed.
Ltac th := unfold tanh, sinh, cosh; dd; rewrite ?exp_Ropp;
  match goal with |- context [exp ?u] => pose proof (exp_pos u); generalize dependent (exp u) end;
  intros e HE; field; split; [apply exp_sum_ne; lra|lra].

Lemma tanh_d : forall u, is_derive tanh u (/ cosh u ^ 2).
Proof.
  intros u. unfold tanh, sinh, cosh. auto_derive.
  - pose proof (exp_pos u). pose proof (exp_pos (- u)). lra.
  - deq. rewrite !exp_Ropp. pose proof (exp_pos u). generalize dependent (exp u). intros e HE. field. split; [lra|]. apply exp_sum_ne; lra.
Qed.
Lemma cosh_d u : is_derive cosh u (sinh u).
Proof. unfold cosh, sinh. auto_derive; [auto|]. deq. field. Qed.

Theorem C93_d2_problem_06 : exists p, d2_problem_06 = Ok p /\ solves_2d p 0.
Proof.
  eexists; (split; [reflexivity|]); unfold solves_2d, solves_2d_but; cbn; (splits; [lra|lra|reflexivity|reflexivity|reflexivity|]).
  assert (T : forall c (f : R -> R) x, is_derive f x c -> derivable_pt_lim (fun x => tanh (f x)) x (c * / cosh (f x) ^ 2)).
  { intros c f x H. apply is_derive_Reals. apply (is_derive_comp tanh f); [apply tanh_d|exact H]. }
  assert (T2 : forall c (f : R -> R) x, is_derive f x c -> derivable_pt_lim (fun x => / cosh (f x) ^ 2) x (c * (-2 * tanh (f x) / cosh (f x) ^ 2))).
  { intros c f x H. apply is_derive_Reals.
    apply (is_derive_comp (fun u => / cosh u ^ 2) f); [|exact H].
    pose proof (cosh_pos (f x)) as P.
    evar_last. { apply is_derive_inv; [apply is_derive_pow, cosh_d|]. apply Rgt_not_eq. apply pow_lt. exact P. }
    unfold tanh. cbn. field. lra. }
  exists (fun x y => - / cosh (1 - x + y) ^ 2), (fun x y => / cosh (1 - x + y) ^ 2),
    (fun x y => - (2 * tanh (1 - x + y) / cosh (1 - x + y) ^ 2)), (fun x y => - (2 * tanh (1 - x + y) / cosh (1 - x + y) ^ 2)). splits.
  - intros x y _. replace (- / cosh (1 - x + y) ^ 2) with (-1 * / cosh (1 - x + y) ^ 2) by ring.
    apply (T (-1) (fun x => 1 - x + y)). auto_derive; [auto|deq; ring].
  - intros x y _. replace (/ cosh (1 - x + y) ^ 2) with (1 * / cosh (1 - x + y) ^ 2) by ring.
    apply (T 1 (fun y => 1 - x + y)). auto_derive; [auto|deq; ring].
  - intros x y _. replace (- (2 * tanh (1 - x + y) / cosh (1 - x + y) ^ 2)) with (- (-1 * (-2 * tanh (1 - x + y) / cosh (1 - x + y) ^ 2))) by (unfold Rdiv; ring).
    apply (derivable_pt_lim_opp (fun x => / cosh (1 - x + y) ^ 2)).
    apply (T2 (-1) (fun x => 1 - x + y)). auto_derive; [auto|deq; ring].
  - intros x y _. replace (- (2 * tanh (1 - x + y) / cosh (1 - x + y) ^ 2)) with (1 * (-2 * tanh (1 - x + y) / cosh (1 - x + y) ^ 2)) by (unfold Rdiv; ring).
    apply (T2 1 (fun y => 1 - x + y)). auto_derive; [auto|deq; ring].
  - intros x y. pose proof (cosh_pos (1 - x + y)). field. lra.
  - sides2 idtac.
    + f_equal. ring.
    + replace (1 - 1 + y) with y by ring. pose proof (cosh_pos y). field. lra.
    + replace (1 - x + -1) with (- x) by ring. now rewrite tanh_neg.
    + f_equal. ring.
  - intros w [=].
Qed.

(** ** Polar angle *)
Lemma atan2_cs x y : 0 < x * x + y * y ->
  cos (atan2 y x) = x / sqrt (x * x + y * y) /\ sin (atan2 y x) = y / sqrt (x * x + y * y).
Proof.
  intros Q. set (r := sqrt (x * x + y * y)). assert (P : 0 < r) by now apply sqrt_lt_R0.
  assert (RR : r * r = x * x + y * y) by (apply sqrt_sqrt; lra).
  assert (A : forall x, x <> 0 -> 0 < 1 + (y / x)²) by (intros z _; pose proof (Rle_0_sqr (y / z)); lra).
  assert (S : x <> 0 -> sqrt (1 + (y / x)²) = r / Rabs x).
  { intros X. rewrite <- (sqrt_Rsqr (Rabs x)) by apply Rabs_pos. unfold r. rewrite <- sqrt_div; [|lra|].
    - f_equal. rewrite <- Rsqr_abs. unfold Rsqr. field. exact X.
    - rewrite <- Rsqr_abs. now apply Rsqr_pos_lt. }
  unfold atan2. destruct (Rltb_spec 0 x) as [X|X].
  { rewrite cos_atan, sin_atan, (S (Rgt_not_eq _ _ X)), Rabs_pos_eq by lra. split; field; lra. }
  destruct (Rltb_spec x 0) as [X'|X'].
  { assert (C : cos (atan (y / x)) = - (x / r) /\ sin (atan (y / x)) = - (y / r)).
    { rewrite cos_atan, sin_atan, S, Rabs_left by lra. split; field; lra. }
    destruct (Rleb 0 y).
    - rewrite neg_cos, neg_sin. lra.
    - replace (atan (y / x) - PI) with (- (PI - atan (y / x))) by ring. rewrite cos_neg, sin_neg.
      replace (PI - atan (y / x)) with (- atan (y / x) + PI) by ring. rewrite neg_cos, neg_sin, cos_neg, sin_neg. lra. }
  assert (x = 0) by lra. subst x. assert (RY : r * r = y * y) by lra.
  destruct (Rltb_spec 0 y) as [Y|Y]; [|destruct (Rltb_spec y 0) as [Y'|Y']].
  - rewrite cos_PI2, sin_PI2. assert (r = y) as -> by nra. split; field; lra.
  - rewrite cos_neg, sin_neg, cos_PI2, sin_PI2. assert (r = - y) as -> by nra. split; field; lra.
  - nra.
Qed.

Lemma sin4 t : sin (4 * t) = 4 * sin t * cos t * (cos t * cos t - sin t * sin t).
Proof. replace (4 * t) with (2 * (2 * t)) by ring. rewrite sin_2a, sin_2a, cos_2a. ring. Qed.

(** the solution and the source of problem 8 without angles *)
Lemma phi8 x y : 0 < x * x + y * y -> ln (sqrt (x * x + y * y)) * sin (4 * atan2 y x) =
  2 * ln (x * x + y * y) * x * y * (x * x - y * y) / (x * x + y * y) ^ 2.
Proof.
  intros Q. destruct (atan2_cs x y Q) as (C & S). rewrite sin4, C, S.
  assert (P : 0 < sqrt (x * x + y * y)) by now apply sqrt_lt_R0.
  assert (RR : x * x + y * y = sqrt (x * x + y * y) * sqrt (x * x + y * y)) by (rewrite sqrt_sqrt; lra).
  assert (L : ln (x * x + y * y) = 2 * ln (sqrt (x * x + y * y))) by (rewrite RR at 1; rewrite ln_mult by auto; ring).
  rewrite L. set (r := sqrt (x * x + y * y)) in *. rewrite RR. field. lra.
Qed.

Lemma near_x x y : 0 < x * x + y * y -> locally x (fun z => 0 < z * z + y * y).
Proof.
  intros Q. destruct (Req_dec y 0) as [-> | Y].
  - assert (X : x <> 0) by nra. exists (mkposreal (Rabs x) (Rabs_pos_lt x X)). intros z Hz. cbn in Hz.
    unfold ball in Hz. cbn in Hz. unfold AbsRing_ball, abs, minus, plus, opp in Hz. cbn in Hz.
    assert (z <> 0). { intros ->. rewrite Rplus_0_l, Rabs_Ropp in Hz. lra. } nra.
  - apply filter_forall. intros z. nra.
Qed.
Lemma near_y x y : 0 < x * x + y * y -> locally y (fun z => 0 < x * x + z * z).
Proof. intros Q. destruct (near_x y x) as [e E]; [lra|]. exists e. intros z Hz. specialize (E z Hz). lra. Qed.

(** derivatives of a function that agrees with a simpler one off the origin *)
Lemma Dx_loc (f h : fn2) (g : R) x y : (forall x y, 0 < x * x + y * y -> f x y = h x y) -> 0 < x * x + y * y ->
  is_derive (fun x => h x y) x g -> derivable_pt_lim (fun x => f x y) x g.
Proof.
  intros E Q H. apply is_derive_Reals. eapply is_derive_ext_loc; [|exact H].
  eapply filter_imp; [|exact (near_x x y Q)]. intros z Hz. symmetry. now apply E.
Qed.
Lemma Dy_loc (f h : fn2) (g : R) x y : (forall x y, 0 < x * x + y * y -> f x y = h x y) -> 0 < x * x + y * y ->
  is_derive (fun y => h x y) y g -> derivable_pt_lim (fun y => f x y) y g.
Proof.
  intros E Q H. apply is_derive_Reals. eapply is_derive_ext_loc; [|exact H].
  eapply filter_imp; [|exact (near_y x y Q)]. intros z Hz. symmetry. now apply E.
Qed.

(** with q = x^2 + y^2, p = x y (x^2 - y^2): phi = 2 p ln q / q^2 *)
Definition q8x (x y : R) : R :=
  let q := x * x + y * y in (2 * (3 * x * x * y - y * y * y) * ln q * q + 4 * x * (x * y * (x * x - y * y)) * (1 - 2 * ln q)) / q ^ 3.
Definition q8y (x y : R) : R :=
  let q := x * x + y * y in (2 * (x * x * x - 3 * x * y * y) * ln q * q + 4 * y * (x * y * (x * x - y * y)) * (1 - 2 * ln q)) / q ^ 3.

Lemma phi8_x x y : 0 < x * x + y * y -> is_derive (fun x => 2 * ln (x * x + y * y) * x * y * (x * x - y * y) / (x * x + y * y) ^ 2) x (q8x x y).
Proof. intros Q. unfold q8x. auto_derive; [split; [exact Q|split; [|exact I]]; apply Rgt_not_eq; nra|]. deq. unfold Rminus, Rdiv. field. lra. Qed.
Lemma phi8_y x y : 0 < x * x + y * y -> is_derive (fun y => 2 * ln (x * x + y * y) * x * y * (x * x - y * y) / (x * x + y * y) ^ 2) y (q8y x y).
Proof. intros Q. unfold q8y. auto_derive; [split; [exact Q|split; [|exact I]]; apply Rgt_not_eq; nra|]. deq. unfold Rminus, Rdiv. field. lra. Qed.

Lemma phi8_2 x y : 0 < x * x + y * y -> exists a b, is_derive (fun x => q8x x y) x a /\ is_derive (fun y => q8y x y) y b /\
  a + b = -16 * (2 * ln (x * x + y * y) * x * y * (x * x - y * y) / (x * x + y * y) ^ 2) / (x * x + y * y).
Proof.
  intros Q. assert (N : x * x + y * y <> 0) by lra.
  assert (N3 : (x * x + y * y) * ((x * x + y * y) * ((x * x + y * y) * 1)) <> 0) by (repeat apply Rmult_integral_contrapositive_currified; lra).
  do 2 eexists. unfold q8x, q8y. split; [|split].
  - auto_derive; [repeat split; try exact Q; try exact N3|reflexivity].
  - auto_derive; [repeat split; try exact Q; try exact N3|reflexivity].
  - deq. unfold Rminus, Rdiv. field. lra.
Qed.

Lemma lozenge_pos a b r s : 0 < a -> 0 < b -> -1 <= r <= 1 -> -1 <= s <= 1 ->
  let p := lozenge a b r s in 0 < fst p * fst p + snd p * snd p.
Proof.
  intros A B Hr Hs. unfold lozenge, polar, lerp. cbn [fst snd].
  replace ((1 - s) / 2 * 0 + (1 + s) / 2 * (PI / 2)) with (PI * (1 + s) / 4) by field.
  set (t := PI * (1 + s) / 4). pose proof PI_RGT_0 as HP.
  assert (T : 0 <= t <= PI / 2) by (unfold t; split; nra).
  assert (C : 0 <= cos t) by (apply cos_ge_0; lra). assert (S : 0 <= sin t) by (apply sin_ge_0; lra).
  pose proof (sin2_cos2 t) as SC. unfold Rsqr in SC.
  set (X := (1 - r) / 2 * (a * cos t) + (1 + r) / 2 * ((1 - s) / 2 * b + (1 + s) / 2 * 0)).
  set (Y := (1 - r) / 2 * (a * sin t) + (1 + r) / 2 * ((1 - s) / 2 * 0 + (1 + s) / 2 * b)).
  assert (E : X + Y = (1 - r) / 2 * (a * (cos t + sin t)) + (1 + r) / 2 * b) by (unfold X, Y; field).
  assert (CS : 1 <= cos t + sin t) by nra.
  assert (0 < X + Y).
  { rewrite E. assert (a <= a * (cos t + sin t)) by nra.
    assert ((1 - r) / 2 * a <= (1 - r) / 2 * (a * (cos t + sin t))) by (apply Rmult_le_compat_l; lra). nra. }
  clearbody X Y. clear - H. assert (0 < (X + Y) * (X + Y)) by now apply Rmult_lt_0_compat. pose proof (Rle_0_sqr (X - Y)). unfold Rsqr in *. nra.
Qed.

(** problem 8: the sector of a ring or of a perforated lozenge *)
Theorem C93_d2_problem_08 : forall ra rb lozenge, 0 < ra -> 0 < rb ->
  exists p, d2_problem_08 ra rb lozenge = Ok p /\ solves_mapped p.
Proof.
  intros ra rb lz A B.
  assert (M : exists g X, (if lz then quarter_perforated_lozenge_2d ra rb else quarter_ring_2d ra rb) = Ok g /\
    (forall r s, tf2_point g r s = X r s) /\ (forall r s, -1 <= r <= 1 -> -1 <= s <= 1 -> 0 < fst (X r s) * fst (X r s) + snd (X r s) * snd (X r s)) /\
    (forall r, snd (X r (-1)) = 0) /\ (forall r, fst (X r 1) = 0)).
  { destruct lz.
    - destruct (C92_quarter_perforated_lozenge_2d ra rb) as (g & E & P & _). exists g, (lozenge ra rb). splits; auto.
      + intros r s. now apply lozenge_pos.
      + intros r. unfold lozenge, polar, lerp. cbn [fst snd]. replace ((1 - -1) / 2 * 0 + (1 + -1) / 2 * (PI / 2)) with 0 by field. rewrite sin_0. field.
      + intros r. unfold lozenge, polar, lerp. cbn [fst snd]. replace ((1 - 1) / 2 * 0 + (1 + 1) / 2 * (PI / 2)) with (PI / 2) by field. rewrite cos_PI2. field.
    - destruct (C92_quarter_ring_2d ra rb) as (g & E & P & _). exists g, (quarter_ring ra rb). splits; auto.
      + intros r s Hr Hs. unfold quarter_ring. pose proof (polar_norm (lerp ra rb r) (lerp 0 (PI / 2) s)) as N.
        assert (0 < lerp ra rb r) by (unfold lerp; nra). nra.
      + intros r. unfold quarter_ring, polar, lerp. cbn [fst snd]. replace ((1 - -1) / 2 * 0 + (1 + -1) / 2 * (PI / 2)) with 0 by field. rewrite sin_0. field.
      + intros r. unfold quarter_ring, polar, lerp. cbn [fst snd]. replace ((1 - 1) / 2 * 0 + (1 + 1) / 2 * (PI / 2)) with (PI / 2) by field. rewrite cos_PI2. field. }
  destruct M as (g & X & E & P & N & S0 & S1).
  unfold d2_problem_08. rewrite E. cbn [bind]. eexists. split; [reflexivity|]. unfold solves_mapped; cbn [pm_ebcs pm_nbcs pm_map pm_k pm_source pm_analytical].
  assert (IM : forall x y, image g x y -> 0 < x * x + y * y).
  { intros x y (r & s & Hr & Hs & F). specialize (N r s Hr Hs). rewrite P in F. rewrite F in N. exact N. }
  splits; [reflexivity|reflexivity|reflexivity|].
  exists q8x, q8y, (fun x y => Derive (fun x => q8x x y) x), (fun x y => Derive (fun y => q8y x y) y). splits.
  - intros x y H. apply (Dx_loc _ _ _ x y phi8 (IM x y H)). apply phi8_x. now apply IM.
  - intros x y H. apply (Dy_loc _ _ _ x y phi8 (IM x y H)). apply phi8_y. now apply IM.
  - intros x y H. apply is_derive_Reals, Derive_correct. destruct (phi8_2 x y (IM x y H)) as (a & b & Ha & _). now exists a.
  - intros x y H. apply is_derive_Reals, Derive_correct. destruct (phi8_2 x y (IM x y H)) as (a & b & _ & Hb & _). now exists b.
  - intros x y H. pose proof (IM x y H) as Q. destruct (phi8_2 x y Q) as (a & b & Ha & Hb & Hab).
    assert (UA : Derive (fun x : R => q8x x y) x = a) by (apply is_derive_unique; exact Ha).
    assert (UB : Derive (fun y : R => q8y x y) y = b) by (apply is_derive_unique; exact Hb). cbv beta. rewrite UA, UB, Hab. rewrite <- (phi8 x y Q).
    replace (x * x + y * y) with (sqrt (x * x + y * y) * sqrt (x * x + y * y)) at 2 by (apply sqrt_sqrt; lra).
    pose proof (sqrt_lt_R0 _ Q). field. lra.
  - intros i x y nx ny (_ & r & s & Hr & Hs & F & K). rewrite P in F.
    assert (Q : 0 < x * x + y * y) by (specialize (N r s Hr Hs); rewrite F in N; exact N).
    destruct (tf2_point_and_derivs g false r s) as [[[? [? ?]] [? ?]] ?].
    destruct i as [|[|[|[|i]]]]; [..|contradiction]; (split; intros f [H1 H2]; cbn in H1, H2; first [discriminate H1|injection H2 as <-]); cbv beta.
    + reflexivity.
    + reflexivity.
    + destruct K as (-> & _). specialize (S0 r). rewrite F in S0. cbn in S0. subst y. rewrite (phi8 x 0 Q). unfold Rdiv. ring.
    + destruct K as (-> & _). specialize (S1 r). rewrite F in S1. cbn in S1. subst x. rewrite (phi8 0 y Q). unfold Rdiv. ring.
Qed.

(** problem 9: potential flow around a cylinder *)
Lemma phi9 a v x y : 0 < x * x + y * y ->
  (sqrt (x * x + y * y) + a * a / sqrt (x * x + y * y)) * v * cos (atan2 y x) = v * (x + a * a * x / (x * x + y * y)).
Proof.
  intros Q. destruct (atan2_cs x y Q) as (C & _). rewrite C.
  assert (P : 0 < sqrt (x * x + y * y)) by now apply sqrt_lt_R0.
  replace (x * x + y * y) with (sqrt (x * x + y * y) * sqrt (x * x + y * y)) at 4 by (apply sqrt_sqrt; lra). field. lra.
Qed.

Theorem C93_d2_problem_09 : forall ra rb v_inf, 0 < ra < rb ->
  exists p, d2_problem_09 ra rb v_inf = Ok p /\ solves_mapped p.
Proof.
  intros a b v AB. unfold d2_problem_09.
  destruct (C92_half_ring_2d a b) as (g & E & P & Xr & Xs & _ & _ & _ & F1 & _ & D1' & D2' & _).
  rewrite E. cbn [bind]. eexists. split; [reflexivity|]. unfold solves_mapped; cbn [pm_ebcs pm_nbcs pm_map pm_k pm_source pm_analytical].
  assert (IM : forall x y, image g x y -> 0 < x * x + y * y).
  { intros x y (r & s & Hr & Hs & F). rewrite P in F. unfold half_ring in F.
    pose proof (polar_norm (lerp a b r) (lerp 0 PI s)) as N. rewrite F in N. cbn [fst snd] in N.
    assert (0 < lerp a b r) by (unfold lerp; nra). nra. }
  splits; [reflexivity|reflexivity|reflexivity|].
  pose (q := fun x y : R => x * x + y * y).
  exists (fun x y => v * (1 + a * a * (y * y - x * x) / q x y ^ 2)), (fun x y => v * (- 2 * a * a * x * y / q x y ^ 2)),
    (fun x y => v * (a * a * (2 * x * x * x - 6 * x * y * y) / q x y ^ 3)), (fun x y => - (v * (a * a * (2 * x * x * x - 6 * x * y * y) / q x y ^ 3))).
  assert (QN : forall x y, 0 < x * x + y * y -> q x y ^ 2 <> 0 /\ q x y <> 0).
  { intros x y Q. unfold q. split; [|lra]. apply Rgt_not_eq. apply pow_lt. exact Q. }
  splits.
  - intros x y H. pose proof (IM x y H) as Q. apply (Dx_loc _ _ _ x y (phi9 a v) Q). auto_derive; [lra|]. deq. unfold q, Rminus, Rdiv. field. lra.
  - intros x y H. pose proof (IM x y H) as Q. apply (Dy_loc _ _ _ x y (phi9 a v) Q). auto_derive; [lra|]. deq. unfold q, Rminus, Rdiv. field. lra.
  - intros x y H. pose proof (IM x y H) as Q. destruct (QN x y Q). apply is_derive_Reals. unfold q in *. auto_derive; [cbn in *; tauto|]. deq. unfold Rminus, Rdiv. field. lra.
  - intros x y H. pose proof (IM x y H) as Q. destruct (QN x y Q). apply is_derive_Reals. unfold q in *. auto_derive; [cbn in *; tauto|]. deq. unfold Rminus, Rdiv. field. lra.
  - intros x y H. ring.
  - intros i x y nx ny (_ & r & s & Hr & Hs & F & K).
    assert (Q : 0 < x * x + y * y) by (apply IM; exists r, s; auto).
    rewrite F1 in K. destruct (D1' r s) as (R1 & R2). destruct (D2' r s) as (S1 & S2).
    assert (UR1 : fst (Xr r s) = (b - a) / 2 * cos (lerp 0 PI s)).
    { eapply uniqueness_limite; [exact R1|]. unfold half_ring, polar, lerp. cbn [fst]. dd. field. }
    assert (US1 : fst (Xs r s) = - (PI / 2) * lerp a b r * sin (lerp 0 PI s)).
    { eapply uniqueness_limite; [exact S1|]. unfold half_ring, polar, lerp. cbn [fst]. dd. field. }
    assert (US2 : snd (Xs r s) = (PI / 2) * lerp a b r * cos (lerp 0 PI s)).
    { eapply uniqueness_limite; [exact S2|]. unfold half_ring, polar, lerp. cbn [snd]. dd. field. }
    assert (UR2 : snd (Xr r s) = (b - a) / 2 * sin (lerp 0 PI s)).
    { eapply uniqueness_limite; [exact R2|]. unfold half_ring, polar, lerp. cbn [snd]. dd. field. }
    destruct (Xr r s) as [xr yr]. destruct (Xs r s) as [xs ys]. cbn [fst snd] in *. subst xr yr xs ys. rewrite P in F. unfold half_ring, polar in F. injection F as FX FY.
    pose proof PI_RGT_0 as HP.
    destruct i as [|[|[|[|i]]]]; [..|contradiction]; (split; intros f [H1 H2]; cbn in H1, H2; first [discriminate H1|injection H2 as <-]); cbv beta.
    + destruct K as (-> & K & _). set (t := lerp 0 PI s) in *. assert (LA : lerp a b (-1) = a) by (unfold lerp; field). rewrite LA in *.
      assert (KK : ny * cos t = nx * sin t).
      { apply Rmult_eq_reg_l with (PI / 2 * a); [|apply Rmult_integral_contrapositive_currified; lra]. nra. }
      pose proof (sin2_cos2 t) as SC. unfold Rsqr in SC.
      assert (QA : q x y = a * a) by (unfold q; rewrite <- FX, <- FY; nra). rewrite QA.
      rewrite <- FX, <- FY.
      replace (1 + a * a * (a * sin t * (a * sin t) - a * cos t * (a * cos t)) / (a * a) ^ 2) with (2 * sin t * sin t) by (transitivity (1 + (sin t * sin t - cos t * cos t)); [nra|field; lra]).
      replace (-2 * a * a * (a * cos t) * (a * sin t) / (a * a) ^ 2) with (- 2 * cos t * sin t) by (field; lra).
      transitivity (2 * v * sin t * (nx * sin t - ny * cos t)); [rewrite KK; ring|ring].
    + reflexivity.
    + destruct K as (-> & K & _). assert (T : lerp 0 PI (-1) = 0) by (unfold lerp; field). rewrite T, sin_0, cos_0 in *.
      assert (nx = 0) by nra. assert (y = 0) by nra. subst. unfold Rdiv. ring.
    + destruct K as (-> & K & _). assert (T : lerp 0 PI 1 = PI) by (unfold lerp; field). rewrite T, sin_PI, cos_PI in *.
      assert (nx = 0) by nra. assert (y = 0) by nra. subst. unfold Rdiv. ring.
Qed.

Print Assumptions C93_d1_problem_01.
Print Assumptions C93_d1_problem_02.
Print Assumptions C93_d1_problem_03.
Print Assumptions C93_d1_problem_04a.
Print Assumptions C93_d1_problem_04b.
Print Assumptions C93_d1_problem_05.
Print Assumptions C93_d2_problem_01.
Print Assumptions C93_d2_problem_02.
Print Assumptions C93_d2_problem_03.
Print Assumptions C93_d2_problem_05.
Print Assumptions C93_d2_problem_07.
Print Assumptions C93_d2_problem_06.
Print Assumptions C93_d2_problem_08.
Print Assumptions C93_d2_problem_09.
