(** C32: the elementary helpers *)
From Coq Require Import Reals ZArith List Lra Lia Psatz.
From Coquelicot Require Import Coquelicot.
From Verif Require Import Base RBase MathFn_Model Float_Model Float_Thm.
Import ListNotations.
Open Scope R_scope.

Ltac rb := repeat match goal with
  | |- context [Rltb ?a ?b] => destruct (Rltb_spec a b)
  | |- context [Rleb ?a ?b] => destruct (Rleb_spec a b)
  | |- context [Reqb ?a ?b] => destruct (Reqb_spec a b)
  end; cbn [orb andb].

(** (-1)^n for every integer, negative ones included *)
Theorem C32_neg_one_pow_n n : neg_one_pow_n n = powerRZ (-1) n.
Proof.
  assert (P : forall k : nat, powerRZ (-1) (2 * Z.of_nat k) = 1).
  { intros k. replace (2 * Z.of_nat k)%Z with (Z.of_nat (2 * k)) by lia. rewrite <- pow_powerRZ. apply pow_1_even. }
  assert (P2 : forall k, powerRZ (-1) (2 * k) = 1).
  { intros k. destruct (Z.le_gt_cases 0 k) as [H|H].
    - rewrite <- (Z2Nat.id k) by auto. apply P.
    - replace (2 * k)%Z with (- (2 * - k))%Z by lia. rewrite <- (Z2Nat.id (- k)) by lia. rewrite powerRZ_neg by lra. replace (/ -1) with (-1) by field. apply P. }
  unfold neg_one_pow_n. change 1%Z with (Z.ones 1). rewrite Z.land_ones by lia. change (2 ^ 1)%Z with 2%Z.
  pose proof (Z.div_mod n 2 ltac:(lia)) as D. pose proof (Z.mod_pos_bound n 2 ltac:(lia)) as B.
  destruct (Z.eqb_spec (n mod 2) 0) as [E|E].
  - rewrite D, E, Z.add_0_r. symmetry. apply P2.
  - assert (E1 : (n mod 2 = 1)%Z) by lia. rewrite D, E1, powerRZ_add by lra. rewrite P2. rewrite powerRZ_1. lra.
Qed.

(** the piecewise laws and the documented relations *)
Theorem C32_steps x :
  (x < 0 -> sign x = -1 /\ ramp x = 0 /\ heaviside x = 0) /\
  (x = 0 -> sign x = 0 /\ ramp x = 0 /\ heaviside x = / 2) /\
  (0 < x -> sign x = 1 /\ ramp x = x /\ heaviside x = 1) /\
  x = sign x * Rabs x /\ ramp x = (x + Rabs x) / 2 /\ ramp x = x * heaviside x /\ heaviside x = / 2 + / 2 * sign x.
Proof.
  unfold sign, ramp, heaviside. rb; splits; intros; try lra;
  unfold Rabs; destruct (Rcase_abs x); lra.
Qed.

Theorem C32_boxcar x a b :
  (b <= a -> boxcar x a b = Panic) /\
  (a < b -> boxcar x a b = Ok (heaviside (x - a) - heaviside (x - b)) /\
     (x < a \/ b < x -> boxcar x a b = Ok 0) /\ (x = a \/ x = b -> boxcar x a b = Ok (/ 2)) /\ (a < x < b -> boxcar x a b = Ok 1)).
Proof.
  unfold boxcar, heaviside. split; intros H.
  - rb; try lra; reflexivity.
  - splits; rb; intros; try lra; try reflexivity; f_equal; lra.
Qed.

Lemma exp_pos1 x : 0 < 1 + exp x. Proof. pose proof (exp_pos x). lra. Qed.

(** logistic: range, symmetry, derivative *)
Theorem C32_logistic x :
  0 < logistic x < 1 /\ logistic (- x) = 1 - logistic x /\ is_derive logistic x (logistic_deriv1 x) /\ 0 < logistic_deriv1 x <= / 4.
Proof.
  pose proof (exp_pos (- x)) as P. assert (H : 0 < logistic x < 1).
  { unfold logistic. split.
    - apply Rdiv_lt_0_compat; lra.
    - apply (Rmult_lt_reg_r (1 + exp (- x))); [lra|]. unfold Rdiv. rewrite Rmult_assoc, Rinv_l by lra. lra. }
  split; [exact H|]. splits.
  - unfold logistic. rewrite Ropp_involutive, exp_Ropp. pose proof (exp_pos x). field. lra.
  - unfold logistic_deriv1, logistic. auto_derive; [lra|]. field. lra.
  - unfold logistic_deriv1. nra.
  - unfold logistic_deriv1. pose proof (Rle_0_sqr (logistic x - / 2)). unfold Rsqr in H0. nra.
Qed.
Print Assumptions C32_logistic.

(** the function that smooth_ramp evaluates above its cutoff *)
Definition smooth_ramp_exact (x beta : R) : R := x + ln (1 + exp (- beta * x)) / beta.

Lemma ln_le_sub t : 0 <= t -> 0 <= ln (1 + t) <= t.
Proof.
  intros H. split.
  - rewrite <- ln_1. destruct H as [H|<-]; [left; apply ln_increasing; lra|]. rewrite Rplus_0_r. lra.
  - destruct H as [H|<-]; [|rewrite Rplus_0_r, ln_1; lra].
    apply Rle_trans with (ln (exp t)); [|rewrite ln_exp; lra]. left. apply ln_increasing; [lra|]. apply exp_ineq1. lra.
Qed.

Lemma exact_alt x beta : 0 < beta -> smooth_ramp_exact x beta = ln (1 + exp (beta * x)) / beta.
Proof.
  intros Hb. unfold smooth_ramp_exact. pose proof (exp_pos (- beta * x)). pose proof (exp_pos (beta * x)).
  replace (1 + exp (beta * x)) with (exp (beta * x) * (1 + exp (- beta * x))).
  - rewrite ln_mult, ln_exp by lra. field. lra.
  - rewrite Rmult_plus_distr_l, <- exp_plus. replace (beta * x + - beta * x) with 0 by ring. rewrite exp_0. ring.
Qed.

(** smooth_ramp stays between the ramp and the ramp plus ln 2 / beta, and the
    cutoff changes it by less than exp(-500) / beta *)
Theorem C32_smooth_ramp x beta : 0 < beta ->
  ramp x <= smooth_ramp x beta <= ramp x + ln 2 / beta /\
  Rabs (smooth_ramp x beta - smooth_ramp_exact x beta) <= exp (-500) / beta.
Proof.
  intros Hb. assert (Ib : 0 < / beta) by now apply Rinv_0_lt_compat.
  assert (L2 : 0 < ln 2) by (rewrite <- ln_1; apply ln_increasing; lra).
  assert (E5 : 0 < exp (-500) / beta) by (apply Rdiv_lt_0_compat; [apply exp_pos|lra]).
  assert (Mono : forall t, 0 <= t <= 1 -> ln (1 + t) / beta <= ln 2 / beta).
  { intros t [T1 T2]. apply Rmult_le_compat_r; [lra|]. destruct T2 as [T2|T2]; [left; apply ln_increasing; lra|right; f_equal; lra]. }
  assert (ExpLe : forall t, t <= 0 -> 0 <= exp t <= 1).
  { intros t Ht. split; [left; apply exp_pos|]. rewrite <- exp_0. destruct Ht as [Ht| ->]; [left; now apply exp_increasing|lra]. }
  unfold smooth_ramp. rb.
  - assert (Hx : x < 0) by nra.
    assert (R : ramp x = 0) by (unfold ramp; rb; lra). rewrite R. split; [split; [lra|]|].
    + assert (0 < ln 2 / beta) by (apply Rdiv_lt_0_compat; lra). lra.
    + rewrite exact_alt by auto. pose proof (exp_pos (beta * x)). destruct (ln_le_sub (exp (beta * x)) ltac:(lra)) as [A B].
      assert (C : exp (beta * x) <= exp (-500)) by (left; apply exp_increasing; nra).
      assert (0 <= ln (1 + exp (beta * x)) / beta <= exp (-500) / beta).
      { split; [apply Rmult_le_pos; lra|apply Rmult_le_compat_r; lra]. }
      rewrite Rabs_left1; lra.
  - fold (smooth_ramp_exact x beta). split; [|rewrite Rminus_eq_0, Rabs_R0; lra]. unfold ramp. rb.
    + rewrite exact_alt by auto. destruct (ln_le_sub (exp (beta * x))) as [A B]; [left; apply exp_pos|]. split.
      * apply Rmult_le_pos; lra.
      * rewrite Rplus_0_l. apply Mono, ExpLe. nra.
    + unfold smooth_ramp_exact. destruct (ln_le_sub (exp (- beta * x))) as [A B]; [left; apply exp_pos|].
      assert (0 <= ln (1 + exp (- beta * x)) / beta) by (apply Rmult_le_pos; lra). split; [lra|].
      apply Rplus_le_compat_l, Mono, ExpLe. nra.
Qed.
Print Assumptions C32_smooth_ramp.

Lemma cut_locally (f g : R -> R) (c : R -> R) x l :
  continuous c x -> 500 < c x -> (forall y, 500 < c y -> f y = g y) -> is_derive g x l -> is_derive f x l.
Proof.
  intros Hc H E D. apply (is_derive_ext_loc g); [|exact D].
  assert (L : locally (c x) (fun z => 500 < z)) by (apply open_gt; exact H).
  apply (Hc _) in L. unfold filtermap in L. revert L. apply filter_imp. intros y Hy. symmetry. now apply E.
Qed.
Lemma uncut_locally (f g : R -> R) (c : R -> R) x l :
  continuous c x -> c x < 500 -> (forall y, c y < 500 -> f y = g y) -> is_derive g x l -> is_derive f x l.
Proof.
  intros Hc H E D. apply (is_derive_ext_loc g); [|exact D].
  assert (L : locally (c x) (fun z => z < 500)) by (apply open_lt; exact H).
  apply (Hc _) in L. unfold filtermap in L. revert L. apply filter_imp. intros y Hy. symmetry. now apply E.
Qed.

(** the derivatives, away from the cutoffs *)
Theorem C32_smooth_ramp_derivatives x beta : 0 < beta ->
  (- beta * x <> 500 -> is_derive (fun x => smooth_ramp x beta) x (smooth_ramp_deriv1 x beta)) /\
  (- 500 < beta * x < 500 -> is_derive (fun x => smooth_ramp_deriv1 x beta) x (smooth_ramp_deriv2 x beta)) /\
  (beta * x < -500 -> is_derive (fun x => smooth_ramp_deriv1 x beta) x 0 /\ 0 < smooth_ramp_deriv2 x beta <= beta * exp (-500)) /\
  (500 < beta * x -> smooth_ramp_deriv2 x beta = 0 /\ exists d, is_derive (fun x => smooth_ramp_deriv1 x beta) x d /\ 0 < d <= beta * exp (-500)).
Proof.
  intros Hb.
  assert (C : continuous (fun x => - beta * x) x) by (apply (ex_derive_continuous (fun x => - beta * x)); auto_derive; auto).
  assert (D1 : is_derive (fun x => 1 / (1 + exp (- beta * x))) x (beta * exp (- beta * x) / (1 + exp (- beta * x)) ^ 2)).
  { auto_derive; [pose proof (exp_pos (- beta * x)); lra|]. pose proof (exp_pos (- beta * x)). field. lra. }
  assert (Alt : beta * exp (beta * x) / (exp (beta * x) + 1) ^ 2 = beta * exp (- beta * x) / (1 + exp (- beta * x)) ^ 2).
  { replace (- beta * x) with (- (beta * x)) by ring. rewrite exp_Ropp. pose proof (exp_pos (beta * x)). field. split; lra. }
  assert (Small : forall t, t <= exp (-500) -> 0 < t -> 0 < beta * t / (1 + t) ^ 2 <= beta * exp (-500)).
  { intros t T1 T2. assert (S : 1 <= (1 + t) ^ 2) by nra. split.
    - apply Rdiv_lt_0_compat; nra.
    - apply (Rmult_le_reg_r ((1 + t) ^ 2)); [lra|]. unfold Rdiv. rewrite (Rmult_assoc _ (/ _)), Rinv_l by lra.
      pose proof (exp_pos (-500)). rewrite Rmult_1_r. apply Rle_trans with (beta * exp (-500) * 1); [nra|]. apply Rmult_le_compat_l; [nra|lra]. }
  splits.
  - intros H. destruct (Rlt_le_dec 500 (- beta * x)) as [L|L].
    + unfold smooth_ramp_deriv1. rewrite (proj2 (Rltb_true _ _) L). apply (cut_locally _ (fun _ => 0) (fun x => - beta * x)); auto.
      * intros y Hy. unfold smooth_ramp. now rewrite (proj2 (Rltb_true _ _) Hy).
      * auto_derive; auto.
    + unfold smooth_ramp_deriv1. rewrite (proj2 (Rltb_false _ _) L).
      apply (uncut_locally _ (fun x => x + ln (1 + exp (- beta * x)) / beta) (fun x => - beta * x)); auto; [lra| |].
      * intros y Hy. unfold smooth_ramp. rewrite (proj2 (Rltb_false _ _)) by lra. reflexivity.
      * pose proof (exp_pos (- beta * x)). auto_derive; [repeat split; lra|]. field. lra.
  - intros H. unfold smooth_ramp_deriv2. rewrite (proj2 (Rltb_false _ _)) by lra. rewrite Alt.
    apply (uncut_locally _ (fun x => 1 / (1 + exp (- beta * x))) (fun x => - beta * x)); auto; [lra|].
    intros y Hy. unfold smooth_ramp_deriv1. rewrite (proj2 (Rltb_false _ _)) by lra. reflexivity.
  - intros H. split.
    + apply (cut_locally _ (fun _ => 0) (fun x => - beta * x)); auto; [lra| |auto_derive; auto].
      intros y Hy. unfold smooth_ramp_deriv1. now rewrite (proj2 (Rltb_true _ _) Hy).
    + unfold smooth_ramp_deriv2. rewrite (proj2 (Rltb_false _ _)) by lra. rewrite (Rplus_comm _ 1). apply Small; [|apply exp_pos]. left. apply exp_increasing. lra.
  - intros H. split.
    + unfold smooth_ramp_deriv2. now rewrite (proj2 (Rltb_true _ _)) by lra.
    + exists (beta * exp (- beta * x) / (1 + exp (- beta * x)) ^ 2). split.
      * apply (uncut_locally _ (fun x => 1 / (1 + exp (- beta * x))) (fun x => - beta * x)); auto; [lra|].
        intros y Hy. unfold smooth_ramp_deriv1. rewrite (proj2 (Rltb_false _ _)) by lra. reflexivity.
      * apply Small; [|apply exp_pos]. left. apply exp_increasing. lra.
Qed.
Print Assumptions C32_smooth_ramp_derivatives.

(** superquadric functions: signs, and the curve (suq_cos, suq_sin) lies on the
    superellipse |x|^(2/k) + |y|^(2/k) = 1 *)
Theorem C32_superquadric x k : 0 < k ->
  sign (suq_sin x k) = sign (sin x) /\ sign (suq_cos x k) = sign (cos x) /\
  powf (Rabs (suq_cos x k)) (2 / k) + powf (Rabs (suq_sin x k)) (2 / k) = 1.
Proof.
  intros Hk.
  assert (S : forall a, sign (sign a * powf (Rabs a) k) = sign a).
  { intros a. unfold powf. destruct (Reqb_spec (Rabs a) 0) as [Z0|Z0].
    - assert (a = 0) by (destruct (Req_dec a 0) as [|N]; auto; apply Rabs_no_R0 in N; contradiction). subst. unfold sign. rb; lra.
    - assert (P : 0 < Rpower (Rabs a) k) by apply exp_pos. unfold sign. rb; try lra; try nra. }
  assert (Q : forall a, powf (Rabs (sign a * powf (Rabs a) k)) (2 / k) = a ^ 2).
  { intros a. destruct (Req_dec a 0) as [->|N].
    - assert (E : sign 0 = 0) by (unfold sign; rb; lra). rewrite E, Rmult_0_l, Rabs_R0. unfold powf. rb; [ring|lra].
    - assert (A : 0 < Rabs a) by now apply Rabs_pos_lt.
      assert (E : powf (Rabs a) k = Rpower (Rabs a) k) by (unfold powf; rb; [lra|reflexivity]). rewrite E.
      assert (P : 0 < Rpower (Rabs a) k) by apply exp_pos.
      assert (SA : Rabs (sign a) = 1) by (unfold sign; rb; try lra; unfold Rabs; destruct (Rcase_abs _); lra).
      rewrite Rabs_mult, SA, Rmult_1_l, (Rabs_pos_eq (Rpower _ _)) by lra. unfold powf. rb; [lra|].
      rewrite Rpower_mult. replace (k * (2 / k)) with (INR 2) by (cbn; field; lra). rewrite Rpower_pow by auto. apply pow2_abs. }
  splits; [apply S|apply S|]. unfold suq_cos, suq_sin. rewrite !Q. pose proof (sin2_cos2 x). unfold Rsqr in H. nra.
Qed.
Print Assumptions C32_superquadric.

(** the table is the factorial; every entry is a f64 without rounding *)
Theorem C32_factorial n :
  ((n <= 22)%nat -> exists v, factorial_lookup_22 n = Ok v /\ v = fold_right Z.mul 1%Z (map Z.of_nat (seq 1 n)) /\
     exists u, finite u /\ fval u = IZR v) /\
  ((22 < n)%nat -> factorial_lookup_22 n = Panic).
Proof.
  unfold factorial_lookup_22. split; intros H; destruct (Nat.ltb_spec 22 n); try lia; [|reflexivity].
  assert (B : (n < length FACTORIAL_22)%nat) by (cbn; lia).
  exists (nth n FACTORIAL_22 0%Z). split; [now apply vget_ok|].
  assert (R : forall v q j, (0 < q < 2 ^ 53)%Z -> (0 <= j)%Z -> v = (q * 2 ^ j)%Z -> (v < 2 ^ 1024)%Z -> exists u, finite u /\ fval u = IZR v).
  { intros v q j Hq Hj E Hv. pose proof (pow2_pos j Hj).
    destruct (representable false (v * 2 ^ 1074) q (j + 1074)) as (u & U1 & U2 & U3 & U4 & _); try lia.
    - rewrite E, Z.pow_add_r by lia. ring.
    - exists u. split; [split; auto|]. apply int_of_IZR. rewrite f_int_mag, U3. exact U4. }
  do 23 (destruct n as [|n]; [cbn [nth FACTORIAL_22]; split; [reflexivity|];
    match goal with |- exists u, _ /\ fval u = IZR ?v =>
      let q := eval vm_compute in (Z.div v (Z.gcd v (2 ^ 60))) in let j := eval vm_compute in (Z.log2 (Z.gcd v (2 ^ 60))) in
      apply (R v q j); [split; reflexivity|discriminate|reflexivity|reflexivity] end|]).
  cbn in B. lia.
Qed.
Print Assumptions C32_factorial.

Example C32_helpers_ex : neg_one_pow_n (-3) = -1 /\ boxcar 1 1 2 = Ok (/ 2) /\ factorial_lookup_22 5 = Ok 120%Z /\ sign (-2) = -1.
Proof.
  splits; try reflexivity.
  - apply (C32_boxcar 1 1 2); lra.
  - apply C32_steps. lra.
Qed.
