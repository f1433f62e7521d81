(** Taylor expansions and the truncation errors of the difference formulas. *)
From Coq Require Import Reals List Lia Lra Factorial.
From Coquelicot Require Import Coquelicot.
From Verif Require Import Base RBase.
Local Open Scope R_scope.

(** [g] is differentiable [n] times between lo and hi *)
Definition smooth (g : R -> R) (n : nat) (lo hi : R) : Prop :=
  forall t, lo < t < hi -> forall k, (k <= n)%nat -> ex_derive_n g k t.
(** its derivative of order [n] is at most [B] there *)
Definition bounded (g : R -> R) (n : nat) (lo hi B : R) : Prop :=
  forall t, lo < t < hi -> Rabs (Derive_n g n t) <= B.

Definition poly_at (g : R -> R) (n : nat) (x c : R) : R :=
  sum_f_R0 (fun m => c ^ m / INR (fact m) * Derive_n g m x) n.

Lemma taylor_right g n lo hi B x y : smooth g (S n) lo hi -> bounded g (S n) lo hi B -> lo < x -> x < y -> y < hi ->
  Rabs (g y - poly_at g n x (y - x)) <= Rabs (y - x) ^ S n / INR (fact (S n)) * B.
Proof.
  intros HS HB H1 H2 H3. destruct (Taylor_Lagrange g n x y H2) as (z & Hz & E).
  - intros t Ht k Hk. apply HS; [lra|exact Hk].
  - unfold poly_at. rewrite E. match goal with |- Rabs (?a + ?b - ?a) <= _ => replace (a + b - a) with b by ring end.
    assert (F : 0 < INR (fact (S n))) by apply INR_fact_lt_0.
    rewrite Rabs_mult. unfold Rdiv at 1. rewrite Rabs_mult, (Rabs_pos_eq (/ INR (fact (S n)))) by (left; now apply Rinv_0_lt_compat).
    rewrite <- RPow_abs. apply Rmult_le_compat_l.
    + apply Rmult_le_pos; [apply pow_le, Rabs_pos|left; now apply Rinv_0_lt_compat].
    + apply HB. lra.
Qed.

Lemma opp_locally g n lo hi t : smooth g n lo hi -> - hi < t < - lo -> locally (- t) (fun y => forall k, (k <= n)%nat -> ex_derive_n g k y).
Proof.
  intros HS Ht. assert (P : 0 < Rmin (- t - lo) (hi + t)) by (apply Rmin_pos; lra).
  exists (mkposreal _ P). intros y Hy k Hk. apply HS; auto. unfold ball in Hy; cbn in Hy; unfold AbsRing_ball, abs, minus, plus, opp in Hy; cbn in Hy.
  pose proof (Rmin_l (- t - lo) (hi + t)). pose proof (Rmin_r (- t - lo) (hi + t)). apply Rabs_lt_between in Hy. lra.
Qed.
Lemma locally_le (P : R -> nat -> Prop) x n m : (m <= n)%nat -> locally x (fun y => forall k, (k <= n)%nat -> P y k) -> locally x (fun y => forall k, (k <= m)%nat -> P y k).
Proof. intros H. apply filter_imp. intros y Hy k Hk. apply Hy. lia. Qed.

Lemma pow_m1_sq m : (-1) ^ m * (-1) ^ m = 1.
Proof. rewrite <- Rpow_mult_distr. replace (-1 * -1) with 1 by ring. apply pow1. Qed.
Lemma taylor_left g n lo hi B x y : smooth g (S n) lo hi -> bounded g (S n) lo hi B -> lo < y -> y < x -> x < hi ->
  Rabs (g y - poly_at g n x (y - x)) <= Rabs (y - x) ^ S n / INR (fact (S n)) * B.
Proof.
  intros HS HB H1 H2 H3.
  assert (D : forall m t, (m <= S n)%nat -> - hi < t < - lo -> Derive_n (fun u => g (- u)) m t = (-1) ^ m * Derive_n g m (- t)).
  { intros m t Hm Ht. apply Derive_n_comp_opp. apply (locally_le (fun y k => ex_derive_n g k y)) with (S n); auto. now apply opp_locally with lo hi. }
  pose proof (taylor_right (fun u => g (- u)) n (- hi) (- lo) B (- x) (- y)) as T.
  assert (E : Rabs (- y - - x) = Rabs (y - x)) by (rewrite <- Rabs_Ropp; f_equal; ring).
  rewrite E in T. cbv beta in T. rewrite Ropp_involutive in T.
  replace (poly_at g n x (y - x)) with (poly_at (fun u => g (- u)) n (- x) (- y - - x)).
  - apply T; try lra.
    + intros t Ht k Hk. apply ex_derive_n_comp_opp. apply (locally_le (fun y k => ex_derive_n g k y)) with (S n); auto. now apply opp_locally with lo hi.
    + intros t Ht. rewrite D by (auto; lra). rewrite Rabs_mult, <- RPow_abs, (Rabs_left (-1)) by lra. replace (- -1) with 1 by ring. rewrite pow1, Rmult_1_l. apply HB. lra.
  - unfold poly_at. apply sum_eq. intros m Hm. rewrite D by (try lia; lra). rewrite Ropp_involutive.
    replace (- y - - x) with (-1 * (y - x)) by ring. rewrite Rpow_mult_distr.
    transitivity (((-1) ^ m * (-1) ^ m) * ((y - x) ^ m / INR (fact m) * Derive_n g m x)); [unfold Rdiv; ring|]. rewrite pow_m1_sq. ring.
Qed.

Lemma taylor g n lo hi B x y : smooth g (S n) lo hi -> bounded g (S n) lo hi B -> lo < x < hi -> lo < y < hi ->
  Rabs (g y - poly_at g n x (y - x)) <= Rabs (y - x) ^ S n / INR (fact (S n)) * B.
Proof.
  intros HS HB Hx Hy. destruct (Rtotal_order x y) as [L|[<-|L]].
  - apply taylor_right with lo hi; auto; lra.
  - replace (x - x) with 0 by ring. rewrite Rabs_R0. rewrite pow_i by lia. unfold poly_at.
    replace (sum_f_R0 (fun m => 0 ^ m / INR (fact m) * Derive_n g m x) n) with (g x).
    + replace (g x - g x) with 0 by ring. rewrite Rabs_R0. unfold Rdiv. lra.
    + clear. induction n as [|n IH]; cbn [sum_f_R0].
      * cbn. lra.
      * rewrite <- IH. rewrite pow_i by lia. unfold Rdiv. ring.
  - apply taylor_left with lo hi; auto; lra.
Qed.

(** ** the expansion at a multiple of the step *)
Fixpoint zfact (n : nat) : Z := match n with O => 1 | S k => Z.of_nat (S k) * zfact k end%Z.
Lemma zfact_ok n : INR (fact n) = IZR (zfact n).
Proof.
  induction n as [|n IH]; [reflexivity|]. rewrite fact_simpl, mult_INR, IH. cbn [zfact]. rewrite mult_IZR, INR_IZR_INZ. reflexivity.
Qed.
Fixpoint expansion (D : nat -> R) (n : nat) (c : R) : R :=
  match n with O => D O | S k => expansion D k c + c ^ S k / IZR (zfact (S k)) * D (S k) end.
Lemma expansion_ok g n x c : poly_at g n x c = expansion (fun k => Derive_n g k x) n c.
Proof.
  unfold poly_at. induction n as [|n IH]; cbn [sum_f_R0 expansion].
  - cbn. lra.
  - now rewrite IH, zfact_ok.
Qed.

Lemma point g n lo hi B x h y c b : smooth g (S n) lo hi -> bounded g (S n) lo hi B -> lo < x < hi -> lo < y < hi ->
  0 < h -> y = x + c * h -> Rabs c = b ->
  exists e, g y = expansion (fun k => Derive_n g k x) n (c * h) + e /\ - (b ^ S n * (h ^ S n / IZR (zfact (S n)) * B)) <= e <= b ^ S n * (h ^ S n / IZR (zfact (S n)) * B).
Proof.
  intros HS HB Hx Hy Hh E Hb. pose proof (taylor g n lo hi B x y HS HB Hx Hy) as T.
  replace (y - x) with (c * h) in T by (rewrite E; ring). rewrite expansion_ok, zfact_ok in T.
  exists (g y - expansion (fun k => Derive_n g k x) n (c * h)). split; [ring|]. apply Rabs_le_between.
  eapply Rle_trans; [exact T|]. rewrite Rabs_mult, Hb, (Rabs_pos_eq h) by lra. rewrite Rpow_mult_distr. unfold Rdiv. lra.
Qed.

Ltac sides := first [lra|rewrite Rabs_pos_eq by lra; reflexivity|rewrite Rabs_left by lra; lra].
Ltac numbers H := cbv [expansion zfact Z.of_nat Pos.of_succ_nat Pos.succ Z.mul Pos.mul Pos.add] in H.

Section Estimates.
Variables (g : R -> R) (lo hi B x h : R).
Hypothesis Hh : 0 < h.

Lemma B_nonneg n : lo < x < hi -> bounded g n lo hi B -> 0 <= B.
Proof. intros Hx HB. eapply Rle_trans; [apply Rabs_pos|exact (HB x Hx)]. Qed.

Lemma central5_error : smooth g 5 lo hi -> bounded g 5 lo hi B -> lo < x - h -> x + h < hi ->
  Rabs ((4 / 3 * (g (x + h / 2) - g (x - h / 2)) - 1 / 3 * (1 / 2 * (g (x + h) - g (x - h)))) / h - Derive_n g 1 x) <= 1 / 288 * h ^ 4 * B.
Proof.
  intros HS HB H1 H2.
  destruct (point g 4 lo hi B x h (x + h / 2) (1 / 2) (1 / 2)) as (e1 & E1 & B1); auto; try sides.
  destruct (point g 4 lo hi B x h (x - h / 2) (- (1 / 2)) (1 / 2)) as (e2 & E2 & B2); auto; try sides.
  destruct (point g 4 lo hi B x h (x + h) 1 1) as (e3 & E3 & B3); auto; try sides.
  destruct (point g 4 lo hi B x h (x - h) (-1) 1) as (e4 & E4 & B4); auto; try sides.
  rewrite E1, E2, E3, E4. numbers B1; numbers B2; numbers B3; numbers B4. cbv [expansion zfact Z.of_nat Pos.of_succ_nat Pos.succ Z.mul Pos.mul Pos.add].
  match goal with |- Rabs ?a <= _ => replace a with ((4 / 3 * (e1 - e2) - 1 / 6 * (e3 - e4)) / h) by (field; lra) end.
  replace (1 / 288 * h ^ 4 * B) with ((5 / 12 * (h ^ 5 / 120 * B)) / h) by (field; lra).
  unfold Rdiv at 1. rewrite Rabs_mult, (Rabs_pos_eq (/ h)) by (left; now apply Rinv_0_lt_compat). apply Rmult_le_compat_r; [left; now apply Rinv_0_lt_compat|].
  apply Rabs_le_between. set (Q := h ^ 5 / 120 * B) in *. lra.
Qed.

Lemma forward7_error : smooth g 7 lo hi -> bounded g 7 lo hi B -> lo < x -> x + 6 * h < hi ->
  Rabs ((-49 / 20 * g x + 6 * g (x + h) + -15 / 2 * g (x + 2 * h) + 20 / 3 * g (x + 3 * h) + -15 / 4 * g (x + 4 * h) + 6 / 5 * g (x + 5 * h) + -1 / 6 * g (x + 6 * h)) / h - Derive_n g 1 x) <= 647 / 15 * h ^ 6 * B.
Proof.
  intros HS HB H1 H2.
  destruct (point g 6 lo hi B x h (x) 0 0) as (e0 & E0 & B0); auto; try sides. rewrite E0. clear E0. numbers B0.
  destruct (point g 6 lo hi B x h (x + h) 1 1) as (e1 & E1 & B1); auto; try sides. rewrite E1. clear E1. numbers B1.
  destruct (point g 6 lo hi B x h (x + 2 * h) 2 2) as (e2 & E2 & B2); auto; try sides. rewrite E2. clear E2. numbers B2.
  destruct (point g 6 lo hi B x h (x + 3 * h) 3 3) as (e3 & E3 & B3); auto; try sides. rewrite E3. clear E3. numbers B3.
  destruct (point g 6 lo hi B x h (x + 4 * h) 4 4) as (e4 & E4 & B4); auto; try sides. rewrite E4. clear E4. numbers B4.
  destruct (point g 6 lo hi B x h (x + 5 * h) 5 5) as (e5 & E5 & B5); auto; try sides. rewrite E5. clear E5. numbers B5.
  destruct (point g 6 lo hi B x h (x + 6 * h) 6 6) as (e6 & E6 & B6); auto; try sides. rewrite E6. clear E6. numbers B6.
  cbv [expansion zfact Z.of_nat Pos.of_succ_nat Pos.succ Z.mul Pos.mul Pos.add].
  match goal with |- Rabs ?a <= _ => replace a with ((-49 / 20 * e0 + 6 * e1 + -15 / 2 * e2 + 20 / 3 * e3 + -15 / 4 * e4 + 6 / 5 * e5 + -1 / 6 * e6) / h) by (field; lra) end.
  replace (647 / 15 * h ^ 6 * B) with ((217392 * (h ^ 7 / 5040 * B)) / h) by (field; lra).
  assert (P : 0 < / h) by (apply Rinv_0_lt_compat; nra).
  unfold Rdiv at 1. rewrite Rabs_mult, (Rabs_pos_eq (/ h)) by lra. apply Rmult_le_compat_r; [lra|].
  apply Rabs_le_between. set (Q := h ^ 7 / 5040 * B) in *. lra.
Qed.

Lemma backward7_error : smooth g 7 lo hi -> bounded g 7 lo hi B -> lo < x - 6 * h -> x < hi ->
  Rabs ((49 / 20 * g x + -6 * g (x - h) + 15 / 2 * g (x - 2 * h) + -20 / 3 * g (x - 3 * h) + 15 / 4 * g (x - 4 * h) + -6 / 5 * g (x - 5 * h) + 1 / 6 * g (x - 6 * h)) / h - Derive_n g 1 x) <= 647 / 15 * h ^ 6 * B.
Proof.
  intros HS HB H1 H2.
  destruct (point g 6 lo hi B x h (x) 0 0) as (e0 & E0 & B0); auto; try sides. rewrite E0. clear E0. numbers B0.
  destruct (point g 6 lo hi B x h (x - h) (-1) 1) as (e1 & E1 & B1); auto; try sides. rewrite E1. clear E1. numbers B1.
  destruct (point g 6 lo hi B x h (x - 2 * h) (-2) 2) as (e2 & E2 & B2); auto; try sides. rewrite E2. clear E2. numbers B2.
  destruct (point g 6 lo hi B x h (x - 3 * h) (-3) 3) as (e3 & E3 & B3); auto; try sides. rewrite E3. clear E3. numbers B3.
  destruct (point g 6 lo hi B x h (x - 4 * h) (-4) 4) as (e4 & E4 & B4); auto; try sides. rewrite E4. clear E4. numbers B4.
  destruct (point g 6 lo hi B x h (x - 5 * h) (-5) 5) as (e5 & E5 & B5); auto; try sides. rewrite E5. clear E5. numbers B5.
  destruct (point g 6 lo hi B x h (x - 6 * h) (-6) 6) as (e6 & E6 & B6); auto; try sides. rewrite E6. clear E6. numbers B6.
  cbv [expansion zfact Z.of_nat Pos.of_succ_nat Pos.succ Z.mul Pos.mul Pos.add].
  match goal with |- Rabs ?a <= _ => replace a with ((49 / 20 * e0 + -6 * e1 + 15 / 2 * e2 + -20 / 3 * e3 + 15 / 4 * e4 + -6 / 5 * e5 + 1 / 6 * e6) / h) by (field; lra) end.
  replace (647 / 15 * h ^ 6 * B) with ((217392 * (h ^ 7 / 5040 * B)) / h) by (field; lra).
  assert (P : 0 < / h) by (apply Rinv_0_lt_compat; nra).
  unfold Rdiv at 1. rewrite Rabs_mult, (Rabs_pos_eq (/ h)) by lra. apply Rmult_le_compat_r; [lra|].
  apply Rabs_le_between. set (Q := h ^ 7 / 5040 * B) in *. lra.
Qed.

Lemma central9_error : smooth g 10 lo hi -> bounded g 10 lo hi B -> lo < x - 4 * h -> x + 4 * h < hi ->
  Rabs ((-1 / 560 * g (x - 4 * h) + 8 / 315 * g (x - 3 * h) + -1 / 5 * g (x - 2 * h) + 8 / 5 * g (x - 1 * h) + -205 / 72 * g x + 8 / 5 * g (x + 1 * h) + -1 / 5 * g (x + 2 * h) + 8 / 315 * g (x + 3 * h) + -1 / 560 * g (x + 4 * h)) / (h * h) - Derive_n g 2 x) <= 1957 / 992250 * h ^ 8 * B.
Proof.
  intros HS HB H1 H2.
  destruct (point g 9 lo hi B x h (x - 4 * h) (-4) 4) as (e0 & E0 & B0); auto; try sides. rewrite E0. clear E0. numbers B0.
  destruct (point g 9 lo hi B x h (x - 3 * h) (-3) 3) as (e1 & E1 & B1); auto; try sides. rewrite E1. clear E1. numbers B1.
  destruct (point g 9 lo hi B x h (x - 2 * h) (-2) 2) as (e2 & E2 & B2); auto; try sides. rewrite E2. clear E2. numbers B2.
  destruct (point g 9 lo hi B x h (x - 1 * h) (-1) 1) as (e3 & E3 & B3); auto; try sides. rewrite E3. clear E3. numbers B3.
  destruct (point g 9 lo hi B x h (x) 0 0) as (e4 & E4 & B4); auto; try sides. rewrite E4. clear E4. numbers B4.
  destruct (point g 9 lo hi B x h (x + 1 * h) 1 1) as (e5 & E5 & B5); auto; try sides. rewrite E5. clear E5. numbers B5.
  destruct (point g 9 lo hi B x h (x + 2 * h) 2 2) as (e6 & E6 & B6); auto; try sides. rewrite E6. clear E6. numbers B6.
  destruct (point g 9 lo hi B x h (x + 3 * h) 3 3) as (e7 & E7 & B7); auto; try sides. rewrite E7. clear E7. numbers B7.
  destruct (point g 9 lo hi B x h (x + 4 * h) 4 4) as (e8 & E8 & B8); auto; try sides. rewrite E8. clear E8. numbers B8.
  cbv [expansion zfact Z.of_nat Pos.of_succ_nat Pos.succ Z.mul Pos.mul Pos.add].
  match goal with |- Rabs ?a <= _ => replace a with ((-1 / 560 * e0 + 8 / 315 * e1 + -1 / 5 * e2 + 8 / 5 * e3 + -205 / 72 * e4 + 8 / 5 * e5 + -1 / 5 * e6 + 8 / 315 * e7 + -1 / 560 * e8) / (h * h)) by (field; lra) end.
  replace (1957 / 992250 * h ^ 8 * B) with ((250496 / 35 * (h ^ 10 / 3628800 * B)) / (h * h)) by (field; lra).
  assert (P : 0 < / (h * h)) by (apply Rinv_0_lt_compat; nra).
  unfold Rdiv at 1. rewrite Rabs_mult, (Rabs_pos_eq (/ (h * h))) by lra. apply Rmult_le_compat_r; [lra|].
  apply Rabs_le_between. set (Q := h ^ 10 / 3628800 * B) in *. lra.
Qed.

Lemma forward8_error : smooth g 8 lo hi -> bounded g 8 lo hi B -> lo < x -> x + 7 * h < hi ->
  Rabs ((469 / 90 * g x + -223 / 10 * g (x + h) + 879 / 20 * g (x + 2 * h) + -949 / 18 * g (x + 3 * h) + 41 * g (x + 4 * h) + -201 / 10 * g (x + 5 * h) + 1019 / 180 * g (x + 6 * h) + -7 / 10 * g (x + 7 * h)) / (h * h) - Derive_n g 2 x) <= 436421 / 720 * h ^ 6 * B.
Proof.
  intros HS HB H1 H2.
  destruct (point g 7 lo hi B x h (x) 0 0) as (e0 & E0 & B0); auto; try sides. rewrite E0. clear E0. numbers B0.
  destruct (point g 7 lo hi B x h (x + h) 1 1) as (e1 & E1 & B1); auto; try sides. rewrite E1. clear E1. numbers B1.
  destruct (point g 7 lo hi B x h (x + 2 * h) 2 2) as (e2 & E2 & B2); auto; try sides. rewrite E2. clear E2. numbers B2.
  destruct (point g 7 lo hi B x h (x + 3 * h) 3 3) as (e3 & E3 & B3); auto; try sides. rewrite E3. clear E3. numbers B3.
  destruct (point g 7 lo hi B x h (x + 4 * h) 4 4) as (e4 & E4 & B4); auto; try sides. rewrite E4. clear E4. numbers B4.
  destruct (point g 7 lo hi B x h (x + 5 * h) 5 5) as (e5 & E5 & B5); auto; try sides. rewrite E5. clear E5. numbers B5.
  destruct (point g 7 lo hi B x h (x + 6 * h) 6 6) as (e6 & E6 & B6); auto; try sides. rewrite E6. clear E6. numbers B6.
  destruct (point g 7 lo hi B x h (x + 7 * h) 7 7) as (e7 & E7 & B7); auto; try sides. rewrite E7. clear E7. numbers B7.
  cbv [expansion zfact Z.of_nat Pos.of_succ_nat Pos.succ Z.mul Pos.mul Pos.add].
  match goal with |- Rabs ?a <= _ => replace a with ((469 / 90 * e0 + -223 / 10 * e1 + 879 / 20 * e2 + -949 / 18 * e3 + 41 * e4 + -201 / 10 * e5 + 1019 / 180 * e6 + -7 / 10 * e7) / (h * h)) by (field; lra) end.
  replace (436421 / 720 * h ^ 6 * B) with ((24439576 * (h ^ 8 / 40320 * B)) / (h * h)) by (field; lra).
  assert (P : 0 < / (h * h)) by (apply Rinv_0_lt_compat; nra).
  unfold Rdiv at 1. rewrite Rabs_mult, (Rabs_pos_eq (/ (h * h))) by lra. apply Rmult_le_compat_r; [lra|].
  apply Rabs_le_between. set (Q := h ^ 8 / 40320 * B) in *. lra.
Qed.

Lemma backward8_error : smooth g 8 lo hi -> bounded g 8 lo hi B -> lo < x - 7 * h -> x < hi ->
  Rabs ((469 / 90 * g x + -223 / 10 * g (x - h) + 879 / 20 * g (x - 2 * h) + -949 / 18 * g (x - 3 * h) + 41 * g (x - 4 * h) + -201 / 10 * g (x - 5 * h) + 1019 / 180 * g (x - 6 * h) + -7 / 10 * g (x - 7 * h)) / (h * h) - Derive_n g 2 x) <= 436421 / 720 * h ^ 6 * B.
Proof.
  intros HS HB H1 H2.
  destruct (point g 7 lo hi B x h (x) 0 0) as (e0 & E0 & B0); auto; try sides. rewrite E0. clear E0. numbers B0.
  destruct (point g 7 lo hi B x h (x - h) (-1) 1) as (e1 & E1 & B1); auto; try sides. rewrite E1. clear E1. numbers B1.
  destruct (point g 7 lo hi B x h (x - 2 * h) (-2) 2) as (e2 & E2 & B2); auto; try sides. rewrite E2. clear E2. numbers B2.
  destruct (point g 7 lo hi B x h (x - 3 * h) (-3) 3) as (e3 & E3 & B3); auto; try sides. rewrite E3. clear E3. numbers B3.
  destruct (point g 7 lo hi B x h (x - 4 * h) (-4) 4) as (e4 & E4 & B4); auto; try sides. rewrite E4. clear E4. numbers B4.
  destruct (point g 7 lo hi B x h (x - 5 * h) (-5) 5) as (e5 & E5 & B5); auto; try sides. rewrite E5. clear E5. numbers B5.
  destruct (point g 7 lo hi B x h (x - 6 * h) (-6) 6) as (e6 & E6 & B6); auto; try sides. rewrite E6. clear E6. numbers B6.
  destruct (point g 7 lo hi B x h (x - 7 * h) (-7) 7) as (e7 & E7 & B7); auto; try sides. rewrite E7. clear E7. numbers B7.
  cbv [expansion zfact Z.of_nat Pos.of_succ_nat Pos.succ Z.mul Pos.mul Pos.add].
  match goal with |- Rabs ?a <= _ => replace a with ((469 / 90 * e0 + -223 / 10 * e1 + 879 / 20 * e2 + -949 / 18 * e3 + 41 * e4 + -201 / 10 * e5 + 1019 / 180 * e6 + -7 / 10 * e7) / (h * h)) by (field; lra) end.
  replace (436421 / 720 * h ^ 6 * B) with ((24439576 * (h ^ 8 / 40320 * B)) / (h * h)) by (field; lra).
  assert (P : 0 < / (h * h)) by (apply Rinv_0_lt_compat; nra).
  unfold Rdiv at 1. rewrite Rabs_mult, (Rabs_pos_eq (/ (h * h))) by lra. apply Rmult_le_compat_r; [lra|].
  apply Rabs_le_between. set (Q := h ^ 8 / 40320 * B) in *. lra.
Qed.
End Estimates.
