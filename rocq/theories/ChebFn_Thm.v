(** C29: Chebyshev polynomials *)
From Coq Require Import Reals Lra Lia List Psatz.
From Coquelicot Require Import Coquelicot.
From Verif Require Import Base RBase RSum ChebFn_Model.
Import ListNotations.
Open Scope R_scope.

(* ------------------------------------------------------------------ *)
(** * Specification: the polynomials, by their recurrences *)

Fixpoint T (n : nat) (x : R) : R :=
  match n with
  | O => 1
  | S m => match m with O => x | S k => 2 * x * T m x - T k x end
  end.

Fixpoint U (n : nat) (x : R) : R :=
  match n with
  | O => 1
  | S m => match m with O => 2 * x | S k => 2 * x * U m x - U k x end
  end.

Lemma T_SS n x : T (S (S n)) x = 2 * x * T (S n) x - T n x.
Proof. reflexivity. Qed.
Lemma U_SS n x : U (S (S n)) x = 2 * x * U (S n) x - U n x.
Proof. reflexivity. Qed.

(** two steps at a time *)
Lemma two_ind (P : nat -> Prop) : P 0%nat -> P 1%nat -> (forall n, P n -> P (S n) -> P (S (S n))) -> forall n, P n.
Proof. intros H0 H1 HS n. assert (P n /\ P (S n)) as [H _]; auto. induction n as [|n [A B]]; auto. Qed.

(* ------------------------------------------------------------------ *)
(** * Trigonometric and hyperbolic forms *)

Lemma T_cos n t : T n (cos t) = cos (INR n * t).
Proof.
  induction n as [| |n IH1 IH2] using two_ind.
  - cbn. now rewrite Rmult_0_l, cos_0.
  - cbn. now rewrite Rmult_1_l.
  - rewrite T_SS, IH1, IH2. rewrite !S_INR. replace ((INR n + 1 + 1) * t) with ((INR n + 1) * t + t) by ring.
    replace (cos (INR n * t)) with (cos ((INR n + 1) * t - t)) by (f_equal; ring). rewrite cos_plus, cos_minus. ring.
Qed.
Lemma U_sin n t : U n (cos t) * sin t = sin (INR (S n) * t).
Proof.
  induction n as [| |n IH1 IH2] using two_ind.
  - cbn. now rewrite !Rmult_1_l.
  - change (INR 2) with 2. cbn. rewrite sin_2a. ring.
  - rewrite U_SS. replace ((2 * cos t * U (S n) (cos t) - U n (cos t)) * sin t) with (2 * cos t * (U (S n) (cos t) * sin t) - U n (cos t) * sin t) by ring.
    rewrite IH1, IH2. rewrite !S_INR. replace ((INR n + 1 + 1 + 1) * t) with ((INR n + 1 + 1) * t + t) by ring.
    replace (sin ((INR n + 1) * t)) with (sin ((INR n + 1 + 1) * t - t)) by (f_equal; ring). rewrite sin_plus, sin_minus. ring.
Qed.

Lemma cosh_plus a b : cosh (a + b) = cosh a * cosh b + sinh a * sinh b.
Proof. unfold cosh, sinh. rewrite Ropp_plus_distr, !exp_plus. field. Qed.
Lemma sinh_plus a b : sinh (a + b) = sinh a * cosh b + cosh a * sinh b.
Proof. unfold cosh, sinh. rewrite Ropp_plus_distr, !exp_plus. field. Qed.
Lemma cosh_neg a : cosh (- a) = cosh a.
Proof. unfold cosh. rewrite Ropp_involutive. lra. Qed.
Lemma sinh_neg a : sinh (- a) = - sinh a.
Proof. unfold sinh. rewrite Ropp_involutive. lra. Qed.

Lemma T_cosh n t : T n (cosh t) = cosh (INR n * t).
Proof.
  induction n as [| |n IH1 IH2] using two_ind.
  - cbn. now rewrite Rmult_0_l, cosh_0.
  - cbn. now rewrite Rmult_1_l.
  - rewrite T_SS, IH1, IH2. rewrite !S_INR. replace ((INR n + 1 + 1) * t) with ((INR n + 1) * t + t) by ring.
    replace (cosh (INR n * t)) with (cosh ((INR n + 1) * t + - t)) by (f_equal; ring). rewrite !cosh_plus, cosh_neg, sinh_neg. ring.
Qed.
Lemma U_sinh n t : U n (cosh t) * sinh t = sinh (INR (S n) * t).
Proof.
  induction n as [| |n IH1 IH2] using two_ind.
  - cbn. now rewrite !Rmult_1_l.
  - change (INR 2) with 2. replace (2 * t) with (t + t) by ring. rewrite sinh_plus. cbn. ring.
  - rewrite U_SS. replace ((2 * cosh t * U (S n) (cosh t) - U n (cosh t)) * sinh t) with (2 * cosh t * (U (S n) (cosh t) * sinh t) - U n (cosh t) * sinh t) by ring.
    rewrite IH1, IH2. rewrite !S_INR. replace ((INR n + 1 + 1 + 1) * t) with ((INR n + 1 + 1) * t + t) by ring.
    replace (sinh ((INR n + 1) * t)) with (sinh ((INR n + 1 + 1) * t + - t)) by (f_equal; ring). rewrite !sinh_plus, cosh_neg, sinh_neg. ring.
Qed.

Lemma sq_ge x : 1 <= x -> 0 <= x * x - 1.
Proof. intros. nra. Qed.
Lemma acosh_exp x : 1 <= x -> exp (acosh x) = x + sqrt (x * x - 1) /\ exp (- acosh x) = x - sqrt (x * x - 1).
Proof.
  intros H. pose proof (sq_ge x H) as H0. pose proof (sqrt_pos (x * x - 1)) as H1. pose proof (sqrt_sqrt _ H0) as H2. unfold acosh. set (w := sqrt (x * x - 1)) in *.
  rewrite exp_Ropp, exp_ln by lra. split; auto. apply Rmult_eq_reg_l with (x + w); [|lra]. rewrite Rinv_r by lra. nra.
Qed.
Lemma cosh_acosh x : 1 <= x -> cosh (acosh x) = x.
Proof. intros H. destruct (acosh_exp x H) as [E1 E2]. unfold cosh. rewrite E1, E2. field. Qed.
Lemma sinh_acosh x : 1 <= x -> sinh (acosh x) = sqrt (x * x - 1).
Proof. intros H. destruct (acosh_exp x H) as [E1 E2]. unfold sinh. rewrite E1, E2. field. Qed.

Lemma sgn_even n : (-1) ^ n = if Nat.even n then 1 else -1.
Proof. induction n as [|n IH]; [reflexivity|]. rewrite Nat.even_succ, <- Nat.negb_even. cbn [pow]. rewrite IH. destruct (Nat.even n); cbn [negb]; lra. Qed.
Lemma T_neg n x : T n (- x) = (-1) ^ n * T n x.
Proof. induction n as [| |n IH1 IH2] using two_ind; [cbn; ring|cbn; ring|]. rewrite !T_SS, IH1, IH2. cbn [pow]. ring. Qed.
Lemma U_neg n x : U n (- x) = (-1) ^ n * U n x.
Proof. induction n as [| |n IH1 IH2] using two_ind; [cbn; ring|cbn; ring|]. rewrite !U_SS, IH1, IH2. cbn [pow]. ring. Qed.

(** C29: chebyshev_tn(n, x) is T_n(x), for every degree and every x *)
Theorem C29_tn n x : chebyshev_tn n x = T n x.
Proof.
  unfold chebyshev_tn. destruct (Nat.eqb_spec n 0) as [->|N0]; auto. destruct (Nat.eqb_spec n 1) as [->|N1]; auto.
  destruct (Rltb_spec x (-1)) as [H|H].
  - rewrite <- T_cosh, cosh_acosh by lra. rewrite T_neg, sgn_even. destruct (Nat.even n); ring.
  - destruct (Rltb_spec 1 x) as [K|K]; [rewrite <- T_cosh, cosh_acosh by lra; auto|].
    rewrite <- T_cos. now rewrite cos_acos by lra.
Qed.

(* ------------------------------------------------------------------ *)
(** * Derivatives of the polynomials *)

Lemma T_U n x : T (S n) x = x * U n x - match n with O => 0 | S m => U m x end.
Proof.
  induction n as [| |n IH1 IH2] using two_ind; [cbn; ring|cbn; ring|].
  rewrite T_SS, IH2, IH1. destruct n as [|n]; [cbn; ring|]. rewrite !U_SS. ring.
Qed.

(** U_{n-1}, with U_{-1} = 0 *)
Definition U1 (n : nat) (x : R) : R := match n with O => 0 | S m => U m x end.

Lemma derive_rec (f g : R -> R) f' g' x : is_derive f x f' -> is_derive g x g' -> is_derive (fun x => 2 * x * f x - g x) x (2 * f x + 2 * x * f' - g').
Proof.
  intros H K. auto_derive; [splits; auto; eexists; eauto|].
  replace (Derive (fun x0 => f x0) x) with f' by (symmetry; apply is_derive_unique; exact H).
  replace (Derive (fun x0 => g x0) x) with g' by (symmetry; apply is_derive_unique; exact K). ring.
Qed.

Lemma T_derive n x : is_derive (T n) x (INR n * U1 n x).
Proof.
  induction n as [| |n IH1 IH2] using two_ind.
  - cbn. rewrite Rmult_0_l. apply (is_derive_const (K := R_AbsRing) (V := R_NormedModule)).
  - cbn. rewrite Rmult_1_l. apply (is_derive_id (K := R_AbsRing)).
  - apply (is_derive_ext (fun x => 2 * x * T (S n) x - T n x)); [intros; now rewrite T_SS|].
    replace (INR (S (S n)) * U1 (S (S n)) x) with (2 * T (S n) x + 2 * x * (INR (S n) * U1 (S n) x) - INR n * U1 n x); [apply derive_rec; auto|].
    cbn [U1]. rewrite T_U. rewrite !S_INR. destruct n as [|n]; [cbn; ring|].
    rewrite U_SS. cbn [U1]. ring.
Qed.

(** derivative of U_n, by differentiating the recurrence *)
Fixpoint dU (n : nat) (x : R) : R :=
  match n with
  | O => 0
  | S m => match m with O => 2 | S k => 2 * U m x + 2 * x * dU m x - dU k x end
  end.
Lemma dU_SS n x : dU (S (S n)) x = 2 * U (S n) x + 2 * x * dU (S n) x - dU n x.
Proof. reflexivity. Qed.

Lemma U_derive n x : is_derive (U n) x (dU n x).
Proof.
  induction n as [| |n IH1 IH2] using two_ind.
  - apply (is_derive_const (K := R_AbsRing) (V := R_NormedModule)).
  - cbn. auto_derive; auto. ring.
  - apply (is_derive_ext (fun x => 2 * x * U (S n) x - U n x)); [intros; now rewrite U_SS|].
    rewrite dU_SS. apply derive_rec; auto.
Qed.

Lemma U_T n x : U (S (S n)) x - U n x = 2 * T (S (S n)) x.
Proof. rewrite T_U. rewrite U_SS. ring. Qed.

Lemma dU_eq n x : (1 - x * x) * dU n x = x * U n x - INR (S n) * T (S n) x.
Proof.
  induction n as [| |n IH1 IH2] using two_ind.
  - cbn. ring.
  - cbn. ring.
  - rewrite dU_SS.
    replace ((1 - x * x) * (2 * U (S n) x + 2 * x * dU (S n) x - dU n x)) with (2 * (1 - x * x) * U (S n) x + 2 * x * ((1 - x * x) * dU (S n) x) - (1 - x * x) * dU n x) by ring.
    rewrite IH1, IH2. rewrite (T_SS (S n)), !S_INR. rewrite (T_U (S n)), (T_U n). rewrite U_SS.
    destruct n as [|n]; [cbn; ring|]. rewrite U_SS. ring.
Qed.

(** second derivative of U_n *)
Fixpoint ddU (n : nat) (x : R) : R :=
  match n with
  | O => 0
  | S m => match m with O => 0 | S k => 4 * dU m x + 2 * x * ddU m x - ddU k x end
  end.
Lemma ddU_SS n x : ddU (S (S n)) x = 4 * dU (S n) x + 2 * x * ddU (S n) x - ddU n x.
Proof. reflexivity. Qed.

Lemma dU_derive n x : is_derive (dU n) x (ddU n x).
Proof.
  induction n as [| |n IH1 IH2] using two_ind.
  - apply (is_derive_const (K := R_AbsRing) (V := R_NormedModule)).
  - apply (is_derive_const (K := R_AbsRing) (V := R_NormedModule)).
  - apply (is_derive_ext (fun x => 2 * U (S n) x + 2 * x * dU (S n) x - dU n x)); [intros; now rewrite dU_SS|].
    pose proof (U_derive (S n) x) as K.
    rewrite ddU_SS.
    apply (is_derive_ext (fun x => 2 * U (S n) x + (2 * x * dU (S n) x - dU n x))); [intros t; match goal with |- ?a = ?b => change (@eq R a b) end; ring|].
    replace (4 * dU (S n) x + 2 * x * ddU (S n) x - ddU n x) with (2 * dU (S n) x + (2 * dU (S n) x + 2 * x * ddU (S n) x - ddU n x)) by ring.
    apply (is_derive_plus (K := R_AbsRing) (V := R_NormedModule)); [|apply derive_rec; auto].
    apply (is_derive_scal (U (S n)) x 2 _ K).
Qed.

Lemma ddU_eq n x : (1 - x * x) * ddU n x = 3 * x * dU n x + U n x - INR (S n) * INR (S n) * U n x.
Proof.
  assert (E : is_derive (fun x => (1 - x * x) * dU n x) x (- 2 * x * dU n x + (1 - x * x) * ddU n x)).
  { pose proof (dU_derive n x) as K. auto_derive; [splits; auto; eexists; eauto|].
    replace (Derive (fun x0 => dU n x0) x) with (ddU n x) by (symmetry; apply is_derive_unique; exact K). ring. }
  assert (E2 : is_derive (fun x => (1 - x * x) * dU n x) x (U n x + x * dU n x - INR (S n) * (INR (S n) * U n x))).
  { apply (is_derive_ext (fun x => x * U n x - INR (S n) * T (S n) x)); [intros; now rewrite dU_eq|].
    pose proof (U_derive n x) as K. pose proof (T_derive (S n) x) as K2. cbn [U1] in K2.
    remember (INR (S n)) as m. remember (T (S n)) as t. auto_derive; [splits; auto; eexists; eauto|].
    replace (Derive (fun x0 => U n x0) x) with (dU n x) by (symmetry; apply is_derive_unique; exact K).
    replace (Derive (fun x0 => t x0) x) with (m * U n x) by (symmetry; apply is_derive_unique; exact K2). ring. }
  pose proof (is_derive_unique _ _ _ E) as F1. pose proof (is_derive_unique _ _ _ E2) as F2. rewrite F1 in F2. nra.
Qed.

(* ------------------------------------------------------------------ *)
(** * At the ends of the interval *)

Lemma U_one n : U n 1 = INR (S n).
Proof. induction n as [| |n IH1 IH2] using two_ind; [reflexivity|cbn; ring|]. rewrite U_SS, IH1, IH2, !S_INR. ring. Qed.
Lemma dU_one n : dU n 1 = INR n * (INR n + 1) * (INR n + 2) / 3.
Proof. induction n as [| |n IH1 IH2] using two_ind; [cbn; field|cbn; field|]. rewrite dU_SS, U_one, IH1, IH2, !S_INR. field. Qed.
Lemma ddU_one n : ddU n 1 = INR n * (INR n - 1) * (INR n + 1) * (INR n + 2) * (INR n + 3) / 15.
Proof. induction n as [| |n IH1 IH2] using two_ind; [cbn; field|cbn; field|]. rewrite ddU_SS, dU_one, IH1, IH2, !S_INR. field. Qed.
Lemma dU_neg n x : dU n (- x) = - (-1) ^ n * dU n x.
Proof. induction n as [| |n IH1 IH2] using two_ind; [cbn; ring|cbn; ring|]. rewrite !dU_SS, U_neg, IH1, IH2. cbn [pow]. ring. Qed.
Lemma ddU_neg n x : ddU n (- x) = (-1) ^ n * ddU n x.
Proof. induction n as [| |n IH1 IH2] using two_ind; [cbn; ring|cbn; ring|]. rewrite !ddU_SS, dU_neg, IH1, IH2. cbn [pow]. ring. Qed.

Lemma acos_in x : -1 < x < 1 -> 0 < sin (acos x) /\ cos (acos x) = x /\ sin (acos x) * sin (acos x) = 1 - x * x.
Proof.
  intros H. assert (C : cos (acos x) = x) by (apply cos_acos; lra). pose proof (sin2_cos2 (acos x)) as Q. unfold Rsqr in Q. rewrite C in Q.
  splits; auto; try lra. apply sin_gt_0.
  - pose proof (acos_bound x). destruct (Req_dec (acos x) 0) as [E|E]; [rewrite E, cos_0 in C; lra|lra].
  - pose proof (acos_bound x). destruct (Req_dec (acos x) PI) as [E|E]; [rewrite E, cos_PI in C; lra|lra].
Qed.

Lemma sqrt_sq_pos x : 1 < x -> 0 < sqrt (x * x - 1) /\ sqrt (x * x - 1) * sqrt (x * x - 1) = x * x - 1.
Proof. intros H. assert (0 < x * x - 1) by nra. split; [now apply sqrt_lt_R0|apply sqrt_sqrt; lra]. Qed.

(** n sin(n acos x) / sin(acos x) and n sinh(n acosh x) / sqrt(x^2 - 1) *)
Lemma U1_sin n t : U1 n (cos t) * sin t = sin (INR n * t).
Proof. destruct n as [|n]; [cbn; now rewrite !Rmult_0_l, sin_0|]. apply U_sin. Qed.
Lemma U1_sinh n t : U1 n (cosh t) * sinh t = sinh (INR n * t).
Proof. destruct n as [|n]; [cbn; now rewrite !Rmult_0_l, sinh_0|]. apply U_sinh. Qed.
Lemma U1_neg n x : U1 n (- x) = - (-1) ^ n * U1 n x.
Proof. destruct n as [|n]; [cbn; ring|]. cbn [U1 pow]. rewrite U_neg. ring. Qed.
Lemma U1_one n : U1 n 1 = INR n.
Proof. destruct n as [|n]; [reflexivity|]. apply U_one. Qed.

Lemma m1 : -1 = - (1).
Proof. ring. Qed.
Lemma U1_m1 n : U1 n (-1) = - (-1) ^ n * INR n.
Proof. rewrite <- U1_one, <- U1_neg. f_equal; try exact m1. Qed.
Lemma U_m1 n : U n (-1) = (-1) ^ n * INR (S n).
Proof. rewrite <- U_one, <- U_neg. f_equal; try exact m1. Qed.
Lemma dU_m1 n : dU n (-1) = - (-1) ^ n * dU n 1.
Proof. rewrite <- dU_neg. f_equal; try exact m1. Qed.
Lemma ddU_m1 n : ddU n (-1) = (-1) ^ n * ddU n 1.
Proof. rewrite <- ddU_neg. f_equal; try exact m1. Qed.

Lemma tn_deriv1_val n x : chebyshev_tn_deriv1 n x = INR n * U1 n x.
Proof.
  unfold chebyshev_tn_deriv1. cbv zeta. destruct (Rltb_spec (-1) x) as [H1|H1]; destruct (Rltb_spec x 1) as [H2|H2]; cbn [andb].
  - destruct (acos_in x (conj H1 H2)) as (S0 & C & _). rewrite <- U1_sin, C. field. lra.
  - destruct (Reqb_spec x 1) as [->|N]; [now rewrite U1_one|]. destruct (Reqb_spec x (-1)); [lra|]. destruct (Rltb_spec x (-1)); [lra|].
    rewrite <- U1_sinh, cosh_acosh, sinh_acosh by lra. destruct (sqrt_sq_pos x ltac:(lra)). field. lra.
  - destruct (Reqb_spec x 1) as [->|N]; [lra|]. destruct (Reqb_spec x (-1)) as [->|N2].
    + rewrite U1_m1, sgn_even. destruct (Nat.even n); ring.
    + destruct (Rltb_spec x (-1)); [|lra]. rewrite <- U1_sinh, cosh_acosh, sinh_acosh by lra. replace (- x * - x) with (x * x) by ring.
      rewrite U1_neg. destruct (sqrt_sq_pos (- x) ltac:(lra)) as [Q _]. replace (- x * - x) with (x * x) in Q by ring.
      pose proof (sgn_even n) as E. set (s := (-1) ^ n) in *. assert (s * s = 1) by (rewrite E; destruct (Nat.even n); ring).
      replace (- s * (INR n * (- s * U1 n x * sqrt (x * x - 1))) / sqrt (x * x - 1)) with (s * s * (INR n * U1 n x)) by (field; lra). rewrite H0. ring.
  - lra.
Qed.

(** C29: the first derivative of T_n *)
Theorem C29_tn_deriv1 n x : is_derive (T n) x (chebyshev_tn_deriv1 n x).
Proof. rewrite tn_deriv1_val. apply T_derive. Qed.

Definition dU1 (n : nat) (x : R) : R := match n with O => 0 | S m => dU m x end.
Lemma dU1_eq n x : (1 - x * x) * dU1 n x = x * U1 n x - INR n * T n x.
Proof. destruct n as [|n]; [cbn; ring|]. apply dU_eq. Qed.

Lemma Rpower_three_halves d : 0 < d -> Rpower d 1.5 = d * sqrt d.
Proof.
  intros H. replace 1.5 with (1 + / 2) by lra. rewrite Rpower_plus, Rpower_1, Rpower_sqrt by auto. reflexivity.
Qed.

Lemma tn_deriv2_val n x : chebyshev_tn_deriv2 n x = INR n * dU1 n x.
Proof.
  unfold chebyshev_tn_deriv2. cbv zeta. pose proof (dU1_eq n x) as D.
  assert (D1 : dU1 n 1 = INR n * (INR n * INR n - 1) / 3).
  { destruct n as [|n]; [cbn; field|]. cbn [dU1]. rewrite dU_one, !S_INR. field. }
  assert (Dm : dU1 n (-1) = (-1) ^ n * dU1 n 1).
  { destruct n as [|n]; [cbn; ring|]. cbn [dU1 pow]. rewrite dU_m1. ring. }
  destruct (Rltb_spec (-1) x) as [H1|H1]; destruct (Rltb_spec x 1) as [H2|H2]; cbn [andb].
  - destruct (acos_in x (conj H1 H2)) as (S0 & C & S2). rewrite <- U1_sin, <- T_cos, C. set (s := sin (acos x)) in *.
    replace ((s * (- (INR n * INR n) * T n x) - x * (- INR n * (U1 n x * s))) / (s * s * s)) with (INR n * (x * U1 n x - INR n * T n x) / (s * s)) by (field; lra).
    rewrite <- D, S2. field. nra.
  - destruct (Reqb_spec x (-1)) as [->|N]; [lra|]. destruct (Reqb_spec x 1) as [->|N2]; [rewrite D1; field|].
    destruct (Rltb_spec x (-1)); [lra|]. assert (Q : 0 < x * x - 1) by nra. rewrite Rpower_three_halves by auto.
    rewrite <- U1_sinh, <- T_cosh, cosh_acosh, sinh_acosh by lra. pose proof (sqrt_lt_R0 _ Q) as Q2.
    replace (INR n * INR n * T n x / (x * x - 1) - INR n * x * (U1 n x * sqrt (x * x - 1)) / ((x * x - 1) * sqrt (x * x - 1)))
      with (- (INR n * (x * U1 n x - INR n * T n x)) / (x * x - 1)) by (field; split; lra).
    rewrite <- D. field. lra.
  - destruct (Reqb_spec x (-1)) as [->|N].
    + rewrite Dm, D1, sgn_even. destruct (Nat.even n); cbn [negb]; field.
    + destruct (Reqb_spec x 1) as [->|N2]; [lra|]. destruct (Rltb_spec x (-1)); [|lra].
      assert (Q : 0 < x * x - 1) by nra. rewrite Rpower_three_halves by auto. pose proof (sqrt_lt_R0 _ Q) as Q2.
      rewrite <- U1_sinh, <- T_cosh, cosh_acosh, sinh_acosh by lra. replace (- x * - x) with (x * x) by ring. rewrite U1_neg, T_neg, sgn_even.
      destruct (Nat.even n).
      * replace (INR n * INR n * (1 * T n x) / (x * x - 1) + INR n * x * (- (1) * U1 n x * sqrt (x * x - 1)) / ((x * x - 1) * sqrt (x * x - 1)))
          with (- (INR n * (x * U1 n x - INR n * T n x)) / (x * x - 1)) by (field; split; lra). rewrite <- D. field. lra.
      * replace (- (INR n * INR n * (-1 * T n x) / (x * x - 1) + INR n * x * (- (-1) * U1 n x * sqrt (x * x - 1)) / ((x * x - 1) * sqrt (x * x - 1))))
          with (- (INR n * (x * U1 n x - INR n * T n x)) / (x * x - 1)) by (field; split; lra). rewrite <- D. field. lra.
  - lra.
Qed.

(** C29: the second derivative of T_n *)
Theorem C29_tn_deriv2 n x : is_derive (Derive (T n)) x (chebyshev_tn_deriv2 n x).
Proof.
  rewrite tn_deriv2_val. apply (is_derive_ext (fun x => INR n * U1 n x)).
  - intros t. symmetry. apply is_derive_unique, T_derive.
  - apply is_derive_scal. destruct n as [|n]; [apply (is_derive_const (K := R_AbsRing) (V := R_NormedModule))|]. apply U_derive.
Qed.

(** x is neither inside the interval and nearer than 1e-12 to one of its ends *)
Definition not_near (x : R) : Prop := ~ (1 - 1e-12 < x < 1) /\ ~ (-1 < x < -1 + 1e-12).

(** C29: chebyshev_un(n, x) is U_n(x), except for x nearer than 1e-12 to +-1 *)
Theorem C29_un n x : not_near x -> chebyshev_un n x = U n x.
Proof.
  intros [N1 N2]. unfold chebyshev_un. destruct (Nat.eqb_spec n 0) as [->|Z0]; auto. destruct (Nat.eqb_spec n 1) as [->|Z1]; auto. cbv zeta.
  replace (n + 1)%nat with (S n) by lia.
  destruct (Rltb_spec x (-1)) as [H|H].
  - rewrite <- U_sinh, cosh_acosh, sinh_acosh by lra. destruct (sqrt_sq_pos (- x) ltac:(lra)) as [Q _]. rewrite U_neg, sgn_even.
    destruct (Nat.even n); field; lra.
  - destruct (Rltb_spec 1 x) as [K|K].
    + rewrite <- U_sinh, cosh_acosh, sinh_acosh by lra. destruct (sqrt_sq_pos x ltac:(lra)) as [Q _]. field; lra.
    + destruct (Rltb_spec (Rabs (x - 1)) 1e-12) as [A|A].
      * rewrite Rabs_left1 in A by lra. assert (x = 1) as -> by lra. now rewrite U_one.
      * destruct (Rltb_spec (Rabs (x + 1)) 1e-12) as [B|B].
        -- rewrite Rabs_pos_eq in B by lra. assert (x = -1) as -> by lra. rewrite U_m1, sgn_even. destruct (Nat.even n); ring.
        -- assert (I : -1 < x < 1).
           { split; apply Rnot_le_lt; intros Q.
             - assert (x = -1) as -> by lra. replace (-1 + 1) with 0 in B by ring. rewrite Rabs_R0 in B. lra.
             - assert (x = 1) as -> by lra. replace (1 - 1) with 0 in A by ring. rewrite Rabs_R0 in A. lra. }
           destruct (acos_in x I) as (S0 & C & _). rewrite <- U_sin, C. field. lra.
Qed.

(** near means within 1e-12, on either side, for the derivatives *)
Definition not_close (x : R) : Prop := forall e, e = 1 \/ e = -1 -> x = e \/ 1e-12 <= Rabs (x - e).

Lemma not_close_near x : not_close x -> not_near x.
Proof.
  intros H. split; intros K.
  - destruct (H 1 (or_introl eq_refl)) as [E|E]; [lra|]. rewrite Rabs_left1 in E by lra. lra.
  - destruct (H (-1) (or_intror eq_refl)) as [E|E]; [lra|]. rewrite Rabs_pos_eq in E by lra. lra.
Qed.

Lemma un_deriv1_val n x : not_close x -> chebyshev_un_deriv1 n x = dU n x.
Proof.
  intros H. unfold chebyshev_un_deriv1. destruct (Nat.eqb_spec n 0) as [->|Z0]; auto. cbv zeta.
  destruct (Rltb_spec (Rabs (x - 1)) 1e-12) as [A|A].
  - destruct (H 1 (or_introl eq_refl)) as [->|E]; [|lra]. now rewrite dU_one.
  - destruct (Rltb_spec (Rabs (x + 1)) 1e-12) as [B|B].
    + destruct (H (-1) (or_intror eq_refl)) as [->|E]; [|replace (x + 1) with (x - -1) in B by ring; lra].
      rewrite dU_m1, dU_one, sgn_even. destruct (Nat.even n); field.
    + rewrite C29_un by (now apply not_close_near). rewrite C29_tn. replace (n + 1)%nat with (S n) by lia. rewrite <- S_INR. rewrite <- dU_eq. field.
      intros Q. assert ((1 - x) * (1 + x) = 0) as Q2 by lra. apply Rmult_integral in Q2. destruct Q2 as [Q2|Q2].
      * replace (x - 1) with 0 in A by lra. rewrite Rabs_R0 in A. lra.
      * replace (x + 1) with 0 in B by lra. rewrite Rabs_R0 in B. lra.
Qed.

(** C29: the derivatives of U_n *)
Theorem C29_un_deriv1 n x : not_close x -> is_derive (U n) x (chebyshev_un_deriv1 n x).
Proof. intros H. rewrite un_deriv1_val by auto. apply U_derive. Qed.

Theorem C29_un_deriv2 n x : not_close x -> is_derive (Derive (U n)) x (chebyshev_un_deriv2 n x).
Proof.
  intros H. apply (is_derive_ext (dU n)); [intros t; symmetry; apply is_derive_unique, U_derive|].
  replace (chebyshev_un_deriv2 n x) with (ddU n x); [apply dU_derive|].
  unfold chebyshev_un_deriv2. destruct (Nat.eqb_spec n 0) as [->|Z0]; auto. destruct (Nat.eqb_spec n 1) as [->|Z1]; auto. cbn [orb]. cbv zeta.
  destruct (Rltb_spec (Rabs (x - 1)) 1e-12) as [A|A].
  - destruct (H 1 (or_introl eq_refl)) as [->|E]; [|lra]. now rewrite ddU_one.
  - destruct (Rltb_spec (Rabs (x + 1)) 1e-12) as [B|B].
    + destruct (H (-1) (or_intror eq_refl)) as [->|E]; [|replace (x + 1) with (x - -1) in B by ring; lra].
      rewrite ddU_m1, ddU_one, sgn_even. destruct (Nat.even n); field.
    + assert (Q : 1 - x * x <> 0).
      { intros Q. assert ((1 - x) * (1 + x) = 0) as Q2 by lra. apply Rmult_integral in Q2. destruct Q2 as [Q2|Q2].
        * replace (x - 1) with 0 in A by lra. rewrite Rabs_R0 in A. lra.
        * replace (x + 1) with 0 in B by lra. rewrite Rabs_R0 in B. lra. }
      rewrite C29_un by (now apply not_close_near). rewrite un_deriv1_val by auto. rewrite C29_tn, tn_deriv1_val. replace (n + 1)%nat with (S n) by lia. rewrite <- S_INR. cbn [U1].
      pose proof (dU_eq n x) as D1. pose proof (ddU_eq n x) as D2. rewrite <- D1.
      apply Rmult_eq_reg_l with (1 - x * x); auto. rewrite D2. field. auto.
Qed.

(** Refuted: inside the interval and nearer than 1e-12 to 1, chebyshev_un
    returns the value at 1; the polynomial takes this value at 1 only (here
    for U_2). *)
Theorem C29_un_near_refuted x : 1 - 1e-12 < x < 1 -> chebyshev_un 2 x = 3 /\ U 2 x < 3.
Proof.
  intros H. unfold chebyshev_un. cbn [Nat.eqb Nat.add]. destruct (Rltb_spec x (-1)); [lra|]. destruct (Rltb_spec 1 x); [lra|].
  destruct (Rltb_spec (Rabs (x - 1)) 1e-12) as [A|A]; [|rewrite Rabs_left1 in A; lra]. split; [cbn; lra|]. cbn. nra.
Qed.

Example C29_not_close_example : not_close 0.3 /\ not_close 1 /\ not_close (-1) /\ not_close 5.
Proof.
  unfold not_close. splits; intros e [->| ->]; auto; right; first [rewrite Rabs_left1 by lra; lra | rewrite Rabs_pos_eq by lra; lra].
Qed.

Print Assumptions C29_tn.
Print Assumptions C29_tn_deriv1.
Print Assumptions C29_tn_deriv2.
Print Assumptions C29_un.
Print Assumptions C29_un_deriv1.
Print Assumptions C29_un_deriv2.
Print Assumptions C29_un_near_refuted.

(* ------------------------------------------------------------------ *)
(** * Chebyshev-Gauss points *)

Lemma cos_PI_minus x : cos (PI - x) = - cos x.
Proof. apply Rtrigo_facts.cos_pi_minus. Qed.

Lemma cos_half_odd k : cos (PI / 2 + INR k * PI) = 0.
Proof.
  induction k as [|k IH].
  - simpl. replace (PI / 2 + 0 * PI) with (PI / 2) by ring. apply cos_PI2.
  - rewrite S_INR. replace (PI / 2 + (INR k + 1) * PI) with ((PI / 2 + INR k * PI) + PI) by ring. rewrite neg_cos, IH. ring.
Qed.

Definition gauss_angle (nn i : nat) : R := INR (2 * i + 1) * PI / (2 * INR nn + 2).

Lemma gauss_den nn : 0 < 2 * INR nn + 2.
Proof. pose proof (pos_INR nn). lra. Qed.

Lemma gauss_refl nn i : (i <= nn)%nat -> gauss_angle nn (nn - i) = PI - gauss_angle nn i.
Proof.
  intros H. unfold gauss_angle. pose proof (gauss_den nn). rewrite !plus_INR, !mult_INR, minus_INR by auto. change (INR 2) with 2. change (INR 1) with 1. field. lra.
Qed.

Lemma gauss_angle_range nn i : (i <= nn)%nat -> 0 < gauss_angle nn i < PI.
Proof.
  intros H. unfold gauss_angle. pose proof (gauss_den nn). pose proof PI_RGT_0. pose proof (pos_INR i). apply le_INR in H. rewrite plus_INR, mult_INR. change (INR 2) with 2. change (INR 1) with 1. split.
  - apply Rdiv_lt_0_compat; auto. apply Rmult_lt_0_compat; lra.
  - apply (Rmult_lt_reg_r (2 * INR nn + 2)); auto. unfold Rdiv. rewrite Rmult_assoc, Rinv_l by lra. nra.
Qed.

(** C29: chebyshev_gauss_points(nn) holds nn+1 points and point i is -cos((2i+1) pi / (2nn+2)) *)
Theorem C29_gauss_points nn : exists xx, chebyshev_gauss_points nn = Ok xx /\ length xx = (nn + 1)%nat /\
  forall i, (i <= nn)%nat -> nth i xx 0 = - cos (gauss_angle nn i).
Proof.
  unfold chebyshev_gauss_points. set (l := (if Nat.even nn then nn / 2 else (nn + 3) / 2 - 1)%nat).
  assert (Hl : (2 * l = if Nat.even nn then nn else nn + 1)%nat).
  { unfold l. destruct (Nat.even nn) eqn:Ev.
    - apply Nat.even_spec in Ev. destruct Ev as (k & ->). replace (2 * k)%nat with (k * 2)%nat by lia. rewrite Nat.div_mul by lia. lia.
    - assert (Od : Nat.odd nn = true) by (unfold Nat.odd; now rewrite Ev). apply Nat.odd_spec in Od. destruct Od as (k & ->). replace (2 * k + 1 + 3)%nat with ((k + 2) * 2)%nat by lia. rewrite Nat.div_mul by lia. lia. }
  assert (Hl2 : (2 * l <= nn + 1)%nat) by (destruct (Nat.even nn); lia).
  destruct (for_range_inv (fun h (xx : list R) => length xx = (nn + 1)%nat /\ (forall i, (i < h)%nat -> nth i xx 0 = - cos (gauss_angle nn i) /\ nth (nn - i) xx 0 = cos (gauss_angle nn i)) /\
     (forall i, (h <= i <= nn - h)%nat -> nth i xx 0 = 0))
    (fun i xx => m <- usub nn i ;; let v := cos (INR (2 * i + 1) * PI / (2 * INR nn + 2)) in xx <- vset xx m v ;; w <- vget xx m ;; vset xx i (- w)) 0 l (repeat 0 (nn + 1))) as (xx & E & L & V & Z).
  - lia.
  - rewrite repeat_length. splits; auto; try lia. intros i Hi. apply nth_repeat_lt. lia.
  - intros i xx Hi (L & V & Z). rewrite usub_ok by lia. cbn [bind]. cbv zeta. fold (gauss_angle nn i). rewrite vset_ok by lia. cbn [bind]. rewrite (vget_ok _ _ 0) by (rewrite upd_length; lia). cbn [bind].
    rewrite vset_ok by (rewrite upd_length; lia). eexists. split; [reflexivity|]. rewrite !upd_length. rewrite nth_upd_eq by lia. splits; auto.
    + intros j Hj. destruct (Nat.eq_dec j i) as [->|N].
      * rewrite nth_upd_eq by (rewrite upd_length; lia). rewrite nth_upd_ne by lia. rewrite nth_upd_eq by lia. auto.
      * rewrite !nth_upd_ne by lia. apply V. lia.
    + intros j Hj. rewrite !nth_upd_ne by lia. apply Z. lia.
  - exists xx. splits; auto. intros i Hi. destruct (Nat.lt_ge_cases i l) as [H|H]; [now apply V|].
    destruct (Nat.lt_ge_cases (nn - i) l) as [H2|H2].
    + destruct (V _ H2) as (_ & V2). replace (nn - (nn - i))%nat with i in V2 by lia. rewrite V2, gauss_refl by auto. rewrite cos_PI_minus. ring.
    + rewrite Z by lia. destruct (Nat.even nn); [|lia]. replace (gauss_angle nn i) with (PI / 2); [rewrite cos_PI2; ring|].
      pose proof (gauss_refl nn i Hi) as G. replace (nn - i)%nat with i in G by lia. lra.
Qed.

(** C29: the points lie strictly inside (-1, 1), increase strictly, and are the roots of T_(nn+1) *)
Theorem C29_gauss_sorted nn xx : chebyshev_gauss_points nn = Ok xx ->
  (forall i, (i < nn)%nat -> nth i xx 0 < nth (S i) xx 0) /\
  (forall i, (i <= nn)%nat -> -1 < nth i xx 0 < 1 /\ T (nn + 1) (nth i xx 0) = 0).
Proof.
  intros E. destruct (C29_gauss_points nn) as (yy & E' & L & V). rewrite E in E'. injection E' as <-. split.
  - intros i Hi. rewrite !V by lia. apply Ropp_lt_contravar. pose proof (gauss_angle_range nn i ltac:(lia)). pose proof (gauss_angle_range nn (S i) ltac:(lia)).
    apply cos_decreasing_1; try lra. unfold gauss_angle. apply Rmult_lt_compat_r; [apply Rinv_0_lt_compat, gauss_den|]. apply Rmult_lt_compat_r; [apply PI_RGT_0|]. apply lt_INR. lia.
  - intros i Hi. rewrite V by auto. pose proof (gauss_angle_range nn i ltac:(lia)). pose proof PI_RGT_0. split.
    + rewrite <- cos_PI_minus. split.
      * rewrite <- cos_PI. apply cos_decreasing_1; lra.
      * rewrite <- cos_0. apply cos_decreasing_1; lra.
    + rewrite <- cos_PI_minus, T_cos. rewrite <- gauss_refl by auto.
      replace (INR (nn + 1) * gauss_angle nn (nn - i)) with (PI / 2 + INR (nn - i) * PI).
      * apply cos_half_odd.
      * unfold gauss_angle. pose proof (gauss_den nn). rewrite !plus_INR, mult_INR. change (INR 2) with 2. change (INR 1) with 1. field. lra.
Qed.

Print Assumptions C29_gauss_points.
Print Assumptions C29_gauss_sorted.
