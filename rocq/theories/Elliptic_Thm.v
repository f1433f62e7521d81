(** Elliptic integrals: domain, special values, convergence of the duplication algorithm (C103) *)
From Coq Require Import Reals.
From Verif Require Import Base RBase Bessel_Model Elliptic_Model.
Local Open Scope R_scope.
Local Open Scope string_scope.

(* ------------------------------------------------------------------ *)
(** * One step of the duplication *)

Definition lam (x y z : R) : R := sqrt x * (sqrt y + sqrt z) + sqrt y * sqrt z.
Definition max3 (x y z : R) : R := Rmax (Rmax x y) z.
(** the largest of the three is M, the others are at least r M *)
Definition within (u M x y z : R) : Prop :=
  0 < M /\ u * u * M <= x <= M /\ u * u * M <= y <= M /\ u * u * M <= z <= M /\ (x = M \/ y = M \/ z = M).

Lemma sqrt_ge u M x : 0 <= u -> 0 <= M -> u * u * M <= x -> u * sqrt M <= sqrt x.
Proof.
  intros Hu HM H. replace (u * sqrt M) with (sqrt (u * u * M)); [apply sqrt_le_1_alt; auto|].
  rewrite sqrt_mult_alt by (apply Rmult_le_pos; auto). now rewrite sqrt_square.
Qed.
Lemma sqrtM M : 0 <= M -> sqrt M * sqrt M = M.
Proof. apply sqrt_sqrt. Qed.

Lemma lam_ge u M x y z : 0 <= u <= 1 -> within u M x y z -> (u * u + 2 * u) * M <= lam x y z.
Proof.
  intros Hu (HM & Hx & Hy & Hz & Hm). unfold lam.
  pose proof (sqrt_ge u M x) as Sx. pose proof (sqrt_ge u M y) as Sy. pose proof (sqrt_ge u M z) as Sz.
  pose proof (sqrt_pos M) as P. pose proof (sqrtM M ltac:(lra)) as Q.
  assert (Sx' : u * sqrt M <= sqrt x) by (apply Sx; lra).
  assert (Sy' : u * sqrt M <= sqrt y) by (apply Sy; lra).
  assert (Sz' : u * sqrt M <= sqrt z) by (apply Sz; lra). clear Sx Sy Sz.
  assert (U : 0 <= u * sqrt M) by (apply Rmult_le_pos; lra).
  set (t := sqrt M) in *. rewrite <- Q.
  assert (A : forall a b, u * t <= a -> u * t <= b -> (u * u + 2 * u) * (t * t) <= t * (a + b) + a * b).
  { intros a b Ha Hb.
    assert (B1 : u * t * (u * t) <= a * b) by (apply Rmult_le_compat; lra).
    assert (B2 : t * (u * t + u * t) <= t * (a + b)) by (apply Rmult_le_compat_l; lra). lra. }
  destruct Hm as [-> | [-> | ->]]; fold t.
  - apply A; auto.
  - replace (sqrt x * (t + sqrt z) + t * sqrt z) with (t * (sqrt x + sqrt z) + sqrt x * sqrt z) by ring. apply A; auto.
  - replace (sqrt x * (sqrt y + t) + sqrt y * t) with (t * (sqrt x + sqrt y) + sqrt x * sqrt y) by ring. apply A; auto.
Qed.

(** after one step, the ratio of the smallest to the largest is at least v^2 if v^2 (1 + u) <= 2 u *)
Lemma dup_within u v M x y z : 0 < u <= 1 -> 0 <= v -> v * v * (1 + u) <= 2 * u -> within u M x y z ->
  let l := lam x y z in within v (1 / 4 * (M + l)) (1 / 4 * (x + l)) (1 / 4 * (y + l)) (1 / 4 * (z + l)).
Proof.
  intros Hu Hv Huv W l. pose proof (lam_ge u M x y z ltac:(lra) W) as L. fold l in L.
  destruct W as (HM & Hx & Hy & Hz & Hm).
  assert (L0 : 0 < l). { apply Rlt_le_trans with ((u * u + 2 * u) * M); auto. apply Rmult_lt_0_compat; auto. nra. }
  assert (V1 : v * v <= 1). { apply Rmult_le_reg_r with (1 + u); [lra|]. nra. }
  assert (K : forall a, u * u * M <= a -> v * v * (1 / 4 * (M + l)) <= 1 / 4 * (a + l)).
  { intros a Ha.
    assert (v * v * (M + l) <= u * u * M + l); [|nra].
    assert (E : v * v * (M * (1 + u) * (1 + u)) <= 2 * u * (1 + u) * M).
    { replace (v * v * (M * (1 + u) * (1 + u))) with (v * v * (1 + u) * (M * (1 + u))) by ring.
      replace (2 * u * (1 + u) * M) with (2 * u * (M * (1 + u))) by ring. apply Rmult_le_compat_r; [nra|lra]. }
    assert (D : 0 <= (1 - v * v) * (l - (u * u + 2 * u) * M)) by (apply Rmult_le_pos; lra).
    nra. }
  unfold within. splits; try (apply K; lra); try lra.
Qed.

(** the first step: the second largest is at least w^2 M *)
Definition second (w M x y z : R) : Prop :=
  0 < M /\ 0 <= x <= M /\ 0 <= y <= M /\ 0 <= z <= M /\
  (x = M /\ (w * w * M <= y \/ w * w * M <= z) \/ y = M /\ (w * w * M <= x \/ w * w * M <= z) \/
   z = M /\ (w * w * M <= x \/ w * w * M <= y)).
Lemma first_within w v M x y z : 0 < w -> 0 <= v -> v * v * (1 + w) <= w -> second w M x y z ->
  let l := lam x y z in within v (1 / 4 * (M + l)) (1 / 4 * (x + l)) (1 / 4 * (y + l)) (1 / 4 * (z + l)).
Proof.
  intros Hw Hv Hwv (HM & Hx & Hy & Hz & Hm) l.
  pose proof (sqrt_pos M) as P. pose proof (sqrtM M ltac:(lra)) as Q.
  assert (L : w * M <= l).
  { unfold l, lam.
    pose proof (sqrt_pos x). pose proof (sqrt_pos y). pose proof (sqrt_pos z).
    assert (S : forall a, w * w * M <= a -> w * sqrt M <= sqrt a) by (intros a Ha; apply sqrt_ge; lra).
    assert (T : forall a, w * w * M <= a -> w * M <= sqrt M * sqrt a).
    { intros a Ha. apply S in Ha. assert (sqrt M * (w * sqrt M) <= sqrt M * sqrt a) by (apply Rmult_le_compat_l; auto). nra. }
    assert (0 <= sqrt x * sqrt y) by (apply Rmult_le_pos; auto).
    assert (0 <= sqrt x * sqrt z) by (apply Rmult_le_pos; auto).
    assert (0 <= sqrt y * sqrt z) by (apply Rmult_le_pos; auto).
    destruct Hm as [[E [A|A]] | [[E [A|A]] | [E [A|A]]]]; apply T in A; rewrite <- E in A at 2; nra. }
  assert (L0 : 0 < l) by nra.
  assert (V1 : v * v <= 1). { apply Rmult_le_reg_r with (1 + w); [lra|]. nra. }
  assert (K : forall a, 0 <= a -> v * v * (1 / 4 * (M + l)) <= 1 / 4 * (a + l)).
  { intros a Ha. assert (v * v * (M + l) <= l); [|nra].
    assert (v * v * M <= (1 - v * v) * l); [|nra].
    assert ((1 - v * v) * (w * M) <= (1 - v * v) * l) by (apply Rmult_le_compat_l; lra).
    assert (v * v * (1 + w) * M <= w * M) by (apply Rmult_le_compat_r; lra). nra. }
  unfold within. splits; try (apply K; lra); try lra.
Qed.

(** a mean of the three is close to each of them once the ratio is close to one *)
Lemma close u M x y z tol ave : within u M x y z -> 0 < tol -> 0 < u -> 1 < u * u * (1 + tol) ->
  u * u * M <= ave <= M ->
  Rltb (Rmax (Rmax (Rabs ((ave - x) / ave)) (Rabs ((ave - y) / ave))) (Rabs ((ave - z) / ave))) tol = true.
Proof.
  intros (HM & Hx & Hy & Hz & _) Ht Hu Hc Ha. apply Rltb_true.
  assert (HuM : 0 < u * u * M) by (apply Rmult_lt_0_compat; auto; nra).
  assert (K : forall a, u * u * M <= a <= M -> Rabs ((ave - a) / ave) < tol).
  { intros a Ha'. unfold Rdiv. rewrite Rabs_mult, (Rabs_right (/ ave)) by (apply Rle_ge, Rlt_le, Rinv_0_lt_compat; lra).
    apply Rmult_lt_reg_r with ave; [lra|]. rewrite Rmult_assoc, Rinv_l, Rmult_1_r by lra.
    assert (Rabs (ave - a) <= M - u * u * M) by (apply Rabs_le; lra).
    assert (M < u * u * (1 + tol) * M) by nra.
    assert (tol * (u * u * M) <= tol * ave) by (apply Rmult_le_compat_l; lra). nra. }
  apply Rmax_lub_lt; [apply Rmax_lub_lt|]; apply K; auto.
Qed.

(** a chain of ratios that ends close enough to one *)
Fixpoint chain (u : R) (us : list R) (tol : R) : Prop :=
  match us with
  | [] => 1 < u * u * (1 + tol)
  | v :: us => 0 < v <= 1 /\ v * v * (1 + u) <= 2 * u /\ chain v us tol
  end.
(** the chain that starts after the first step from a ratio 1e-40, whose steps are one less than the iterations *)
Definition ratios : list R :=
  [14 / 10 ^ 6; 52 / 10 ^ 4; 101 / 1000; 428 / 1000; 773 / 1000; 933 / 1000; 982 / 1000; 9954 / 10000; 9988 / 10000; 9996 / 10000].
Lemma ratios_ok tol : 15 / 10000 <= tol -> chain (99 / 10 ^ 12) ratios tol.
Proof. intros H. unfold ratios. cbn [chain]. splits; lra. Qed.

(* ------------------------------------------------------------------ *)
(** * Convergence of the loops *)

Lemma rf_loop_ok us : forall u M x y z it a b c d, 0 < u <= 1 -> within u M x y z -> chain u us (25 / 10000) -> us <> [] ->
  exists it' a' b' c' d', rf_loop (length us) it x y z a b c d = (it', (a', b', c', d')) /\ (it' < it + length us)%nat.
Proof.
  induction us as [|v us IH]; intros u M x y z it a b c d Hu W C N; [congruence|].
  destruct C as (Hv & Huv & C).
  pose proof (dup_within u v M x y z Hu ltac:(lra) Huv W) as W'. cbv zeta in W'.
  cbn [length rf_loop]. fold (lam x y z).
  match goal with |- context [Rltb ?t (25 / 10000)] => destruct (Rltb t (25 / 10000)) eqn:E end.
  - do 5 eexists. split; [reflexivity|]. lia.
  - destruct us as [|w us].
    + exfalso. cbn [chain] in C. revert E.
      match goal with |- Rltb ?t _ = false -> _ => assert (E' : Rltb t (25 / 10000) = true) end; [|rewrite E'; discriminate].
      eapply close; [exact W'|lra|lra|exact C|]. unfold within in W'. lra.
    + match goal with |- context [rf_loop (length (w :: us)) (it + 1) ?x ?y ?z ?a ?b ?c ?d] =>
        destruct (IH v _ x y z (it + 1)%nat a b c d Hv W' C) as (it' & a' & b' & c' & d' & E' & L) end; [discriminate|].
      cbv zeta in E'. rewrite E'. exists it', a', b', c', d'. split; [reflexivity|]. cbn [length] in *. lia.
Qed.
Lemma rd_loop_ok us : forall u M x y z it s f a b c d, 0 < u <= 1 -> within u M x y z -> chain u us (15 / 10000) -> us <> [] ->
  exists it' r, rd_loop (length us) it x y z s f a b c d = (it', r) /\ (it' < it + length us)%nat.
Proof.
  induction us as [|v us IH]; intros u M x y z it s f a b c d Hu W C N; [congruence|].
  destruct C as (Hv & Huv & C).
  pose proof (dup_within u v M x y z Hu ltac:(lra) Huv W) as W'. cbv zeta in W'.
  cbn [length rd_loop]. fold (lam x y z).
  match goal with |- context [Rltb ?t (15 / 10000)] => destruct (Rltb t (15 / 10000)) eqn:E end.
  - do 2 eexists. split; [reflexivity|]. lia.
  - destruct us as [|w us].
    + exfalso. cbn [chain] in C. revert E.
      match goal with |- Rltb ?t _ = false -> _ => assert (E' : Rltb t (15 / 10000) = true) end; [|rewrite E'; discriminate].
      eapply close; [exact W'|lra|lra|exact C|]. unfold within in W'. lra.
    + match goal with |- context [rd_loop (length (w :: us)) (it + 1) ?x ?y ?z ?s ?f ?a ?b ?c ?d] =>
        destruct (IH v _ x y z (it + 1)%nat s f a b c d Hv W' C) as (it' & r & E' & L) end; [discriminate|].
      cbv zeta in E'. rewrite E'. exists it', r. split; [reflexivity|]. cbn [length] in *. lia.
Qed.

Lemma start_u : 99 / 10 ^ 12 * (99 / 10 ^ 12) * (1 + / 10 ^ 20) <= / 10 ^ 20.
Proof. lra. Qed.

Lemma rf_converges_gen us M x y z : us <> [] -> chain (99 / 10 ^ 12) us (25 / 10000) -> second (/ 10 ^ 20) M x y z ->
  exists it r, rf_loop (Datatypes.S (length us)) 0 x y z 0 0 0 0 = (it, r) /\ (it < Datatypes.S (length us))%nat.
Proof.
  intros N C S. cbn [rf_loop]. fold (lam x y z).
  pose proof (first_within (/ 10 ^ 20) (99 / 10 ^ 12) M x y z ltac:(lra) ltac:(lra) start_u S) as W. cbv zeta in W.
  match goal with |- context [Rltb ?t (25 / 10000)] => destruct (Rltb t (25 / 10000)) eqn:E end.
  - do 2 eexists. split; [reflexivity|]. lia.
  - match goal with |- context [rf_loop (length us) (0 + 1) ?x ?y ?z ?a ?b ?c ?d] =>
      destruct (rf_loop_ok us (99 / 10 ^ 12) _ x y z (0 + 1)%nat a b c d ltac:(lra) W C N)
        as (it & a' & b' & c' & d' & E' & L) end.
    rewrite E'. do 2 eexists. split; [reflexivity|]. lia.
Qed.
Lemma rd_converges_gen us M x y z : us <> [] -> chain (99 / 10 ^ 12) us (15 / 10000) -> second (/ 10 ^ 20) M x y z ->
  exists it r, rd_loop (Datatypes.S (length us)) 0 x y z 0 1 0 0 0 0 = (it, r) /\ (it < Datatypes.S (length us))%nat.
Proof.
  intros N C S. cbn [rd_loop]. fold (lam x y z).
  pose proof (first_within (/ 10 ^ 20) (99 / 10 ^ 12) M x y z ltac:(lra) ltac:(lra) start_u S) as W. cbv zeta in W.
  match goal with |- context [Rltb ?t (15 / 10000)] => destruct (Rltb t (15 / 10000)) eqn:E end.
  - do 2 eexists. split; [reflexivity|]. lia.
  - match goal with |- context [rd_loop (length us) (0 + 1) ?x ?y ?z ?s ?f ?a ?b ?c ?d] =>
      destruct (rd_loop_ok us (99 / 10 ^ 12) _ x y z (0 + 1)%nat s f a b c d ltac:(lra) W C N)
        as (it & r & E' & L) end.
    rewrite E'. do 2 eexists. split; [reflexivity|]. lia.
Qed.
Lemma n_max_ratios : n_max_iterations = Datatypes.S (length ratios). Proof. reflexivity. Qed.
Lemma ratios_ne : ratios <> []. Proof. discriminate. Qed.
(** the loops of rf and rd stop early when the second largest is at least 1e-40 times the largest *)
Lemma rf_converges M x y z : second (/ 10 ^ 20) M x y z ->
  exists it r, rf_loop n_max_iterations 0 x y z 0 0 0 0 = (it, r) /\ (it < n_max_iterations)%nat.
Proof. rewrite n_max_ratios. apply rf_converges_gen; [exact ratios_ne|apply ratios_ok; lra]. Qed.
Lemma rd_converges M x y z : second (/ 10 ^ 20) M x y z ->
  exists it r, rd_loop n_max_iterations 0 x y z 0 1 0 0 0 0 = (it, r) /\ (it < n_max_iterations)%nat.
Proof. rewrite n_max_ratios. apply rd_converges_gen; [exact ratios_ne|apply ratios_ok; lra]. Qed.

(* ------------------------------------------------------------------ *)
(** * Constants *)
Lemma inv_pow_le a b : (a <= b)%nat -> / 2 ^ b <= / 2 ^ a.
Proof. intros H. apply Rinv_le_contravar; [apply pow_lt; lra|]. apply Rle_pow; [lra|auto]. Qed.
Lemma min_positive_small : 0 < min_positive <= / 2 ^ 300.
Proof. unfold min_positive. split; [apply Rinv_0_lt_compat, pow_lt; lra|]. apply inv_pow_le, Nat.leb_le. reflexivity. Qed.
Lemma f64_max_big : 2 ^ 300 <= f64_max.
Proof.
  unfold f64_max. apply Rle_trans with (1 * 2 ^ 1023).
  - rewrite Rmult_1_l. apply Rle_pow; [lra|]. apply Nat.leb_le. reflexivity.
  - apply Rmult_le_compat_r; [apply pow_le; lra|]. assert (/ 2 ^ 52 <= / 2 ^ 0) by (apply inv_pow_le; lia). simpl in H. lra.
Qed.
Lemma rpower2 k : Rpower 2 (INR k) = 2 ^ k.
Proof. apply Rpower_pow. lra. Qed.
Lemma rd_tiny_small : 2 * Rpower f64_max (- 2 / 3) <= / 10 ^ 41.
Proof.
  pose proof f64_max_big as B. assert (P : 0 < 2 ^ 300) by (apply pow_lt; lra).
  assert (A : Rpower f64_max (- 2 / 3) = / Rpower f64_max (2 / 3)).
  { rewrite <- Rpower_Ropp. f_equal. field. }
  rewrite A.
  assert (G : 2 ^ 200 <= Rpower f64_max (2 / 3)).
  { rewrite <- (rpower2 200). replace (INR 200) with (INR 300 * (2 / 3)) by (simpl; field).
    rewrite <- Rpower_mult. rewrite rpower2. apply Rle_Rpower_l; lra. }
  assert (/ Rpower f64_max (2 / 3) <= / 2 ^ 200) by (apply Rinv_le_contravar; auto; apply pow_lt; lra). lra.
Qed.
Lemma rd_big_big : 1 <= 1 / 10 * (15 / 10000) * Rpower min_positive (- 2 / 3).
Proof.
  pose proof min_positive_small as [P B].
  assert (A : Rpower min_positive (- 2 / 3) = / Rpower min_positive (2 / 3)).
  { rewrite <- Rpower_Ropp. f_equal. field. }
  rewrite A.
  assert (P3 : 0 < 2 ^ 300) by (apply pow_lt; lra).
  assert (G : Rpower min_positive (2 / 3) <= / 2 ^ 200).
  { apply Rle_trans with (Rpower (/ 2 ^ 300) (2 / 3)); [apply Rle_Rpower_l; lra|].
    rewrite <- (rpower2 200), <- (rpower2 300), <- !Rpower_Ropp, Rpower_mult.
    right. f_equal. simpl. field. }
  assert (Q : 0 < Rpower min_positive (2 / 3)) by (unfold Rpower; apply exp_pos).
  assert (/ / 2 ^ 200 <= / Rpower min_positive (2 / 3)) by (apply Rinv_le_contravar; auto). rewrite Rinv_inv in H.
  lra.
Qed.

(* ------------------------------------------------------------------ *)
(** * What is returned *)

Lemma rf_ok x y : 0 <= x <= 1 -> 0 <= y <= 1 -> (/ 10 ^ 40 <= x \/ / 10 ^ 40 <= y) -> exists r, rf x y 1 = Ok r.
Proof.
  intros Hx Hy Hm. unfold rf. cbv zeta.
  pose proof min_positive_small as T. pose proof f64_max_big as B.
  replace (Rltb (Rmin (Rmin x y) 1) 0) with false by (symmetry; apply Rltb_false; repeat apply Rmin_glb; lra).
  replace (Rltb (Rmin (Rmin (x + y) (x + 1)) (y + 1)) (5 * min_positive)) with false
    by (symmetry; apply Rltb_false; repeat apply Rmin_glb; destruct Hm; lra).
  replace (Rltb (2 / 10 * f64_max) (Rmax (Rmax x y) 1)) with false
    by (symmetry; apply Rltb_false; repeat apply Rmax_lub; lra).
  cbn [orb].
  assert (S : second (/ 10 ^ 20) 1 x y 1).
  { unfold second. splits; try lra. }
  destruct (rf_converges 1 x y 1 S) as (it & [[[a b] c] d] & E & L). rewrite E.
  replace (it =? n_max_iterations)%nat with false by (symmetry; apply Nat.eqb_neq; lia). eauto.
Qed.
Lemma rd_ok x y : 0 <= x <= 1 -> 0 <= y <= 1 -> (/ 10 ^ 40 <= x \/ / 10 ^ 40 <= y) -> exists r, rd x y 1 = Ok r.
Proof.
  intros Hx Hy Hm. unfold rd. cbv zeta.
  pose proof rd_tiny_small as T. pose proof rd_big_big as B.
  replace (Rltb (Rmin x y) 0) with false by (symmetry; apply Rltb_false; repeat apply Rmin_glb; lra).
  replace (Rltb (Rmin (x + y) 1) (2 * Rpower f64_max (- 2 / 3))) with false
    by (symmetry; apply Rltb_false; repeat apply Rmin_glb; destruct Hm; lra).
  replace (Rltb (1 / 10 * (15 / 10000) * Rpower min_positive (- 2 / 3)) (Rmax (Rmax x y) 1)) with false
    by (symmetry; apply Rltb_false; repeat apply Rmax_lub; lra).
  cbn [orb].
  assert (S : second (/ 10 ^ 20) 1 x y 1).
  { unfold second. splits; try lra. }
  destruct (rd_converges 1 x y 1 S) as (it & [[[[[s f] a] b] c] d] & E & L). rewrite E.
  replace (it =? n_max_iterations)%nat with false by (symmetry; apply Nat.eqb_neq; lia). eauto.
Qed.

Lemma trig01 x : 0 <= cos x * cos x <= 1 /\ 0 <= sin x * sin x <= 1.
Proof. pose proof (sin2_cos2 x) as H. unfold Rsqr in H. pose proof (Rle_0_sqr (sin x)). pose proof (Rle_0_sqr (cos x)). unfold Rsqr in *. lra. Qed.

(** F(phi, m) is an error exactly outside the documented domain; inside it is a number, or +Inf where
    m sin^2(phi) is one up to ten epsilons: the duplication always converges within its eleven iterations. *)
Theorem C103_f_domain : forall phi m : R,
  (forall e, elliptic_f phi m = Err e <->
     (phi < 0 \/ m < 0) /\ e = "phi and m must be non-negative" \/
     (0 <= phi /\ 0 <= m /\ PI / 2 + epsilon < phi) /\ e = "phi must be in 0 ≤ phi ≤ π/2" \/
     (0 <= phi <= PI / 2 + epsilon /\ min_positive <= phi /\ min_positive <= m /\ 1 < m * (sin phi * sin phi)) /\ e = "m must satisfy: 0 ≤ m·sin²(φ) ≤ 1") /\
  elliptic_f phi m <> Panic /\
  (0 <= phi <= PI / 2 + epsilon -> 0 <= m -> m * (sin phi * sin phi) <= 1 -> exists v, elliptic_f phi m = Ok v /\
     (v = Inf false \/ exists r, v = Fin r) /\
     (min_positive <= phi -> min_positive <= m -> (v = Inf false <-> 1 - m * (sin phi * sin phi) < 10 * epsilon))).
Proof.
  intros phi m. unfold elliptic_f. cbv zeta. pose proof min_positive_small as MP.
  assert (HE : 0 < epsilon) by (unfold epsilon; apply Rinv_0_lt_compat, pow_lt; lra).
  assert (HE' : 10 * epsilon < 1) by (unfold epsilon; lra).
  assert (HE2 : / 10 ^ 40 <= 10 * epsilon) by (unfold epsilon; lra).
  destruct (Rltb_spec phi 0) as [P|P]; cbn [orb].
  { splits; try discriminate; try lra. intros e. split; [intros H; left; split; [auto|congruence]|].
    intros [[_ ->]|[[H _]|[H _]]]; auto; lra. }
  destruct (Rltb_spec m 0) as [M|M].
  { splits; try discriminate; try lra. intros e. split; [intros H; left; split; [auto|congruence]|].
    intros [[_ ->]|[[H _]|[H _]]]; auto; lra. }
  destruct (Rltb_spec (PI / 2 + epsilon) phi) as [Q|Q].
  { splits; try discriminate; try lra. intros e. split; [intros H; right; left; split; [auto|congruence]|].
    intros [[H _]|[[_ ->]|[H _]]]; auto; lra. }
  destruct (Rltb_spec phi min_positive) as [S|S].
  { splits; try discriminate.
    - intros e. split; [discriminate|]. intros [[H _]|[[H _]|[H _]]]; lra.
    - intros. exists (Fin 0). splits; eauto. intros; lra. }
  destruct (Rltb_spec m min_positive) as [T|T].
  { splits; try discriminate.
    - intros e. split; [discriminate|]. intros [[H _]|[[H _]|[H _]]]; lra.
    - intros. exists (Fin phi). splits; eauto. intros; lra. }
  rewrite Rmult_assoc. set (q := m * (sin phi * sin phi)) in *.
  destruct (Rltb_spec 1 q) as [L|L].
  { splits; try discriminate; try lra.
    intros e. split; [intros H; right; right; split; [lra|congruence]|].
    intros [[H _]|[[H _]|[_ ->]]]; auto; lra. }
  assert (Q0 : 0 <= q) by (apply Rmult_le_pos; [lra|apply trig01]).
  rewrite Rabs_left1 by lra.
  destruct (Rltb_spec (- (q - 1)) (10 * epsilon)) as [I|I].
  { splits; try discriminate.
    - intros e. split; [discriminate|]. intros [[H _]|[[H _]|[H _]]]; lra.
    - intros. exists (Inf false). splits; auto. intros; split; auto; lra. }
  destruct (rf_ok (cos phi * cos phi) (1 - q)) as [r E]; [apply trig01|lra|right; lra|]. rewrite E. cbn [bind].
  splits; try discriminate.
  - intros e. split; [discriminate|]. intros [[H _]|[[H _]|[H _]]]; lra.
  - intros. exists (Fin (sin phi * r)). splits; eauto. intros; split; [discriminate|lra].
Qed.

(** E(phi, m) is a number for every phi in [0, pi/2] and m >= 0 with m sin^2(phi) <= 1, as soon as one of cos^2(phi) and
    1 - m sin^2(phi) is at least 1e-40 (the square of the f64 cosine next to pi/2 is 3.7e-33). *)
Theorem C103_e_domain : forall phi m : R, 0 <= phi <= PI / 2 + epsilon -> 0 <= m -> m * (sin phi * sin phi) <= 1 ->
  / 10 ^ 40 <= cos phi * cos phi \/ / 10 ^ 40 <= 1 - m * (sin phi * sin phi) ->
  exists r, elliptic_e phi m = Ok (Fin r).
Proof.
  intros phi m Hp Hm H1 H2. unfold elliptic_e. cbv zeta.
  replace (Rltb phi 0) with false by (symmetry; apply Rltb_false; lra).
  replace (Rltb m 0) with false by (symmetry; apply Rltb_false; lra). cbn [orb].
  replace (Rltb (PI / 2 + epsilon) phi) with false by (symmetry; apply Rltb_false; lra).
  destruct (Rltb phi min_positive); eauto. destruct (Rltb m min_positive); eauto.
  rewrite Rmult_assoc. set (q := m * (sin phi * sin phi)) in *.
  replace (Rltb 1 q) with false by (symmetry; apply Rltb_false; lra).
  assert (Q0 : 0 <= q) by (apply Rmult_le_pos; [lra|apply trig01]).
  destruct (rf_ok (cos phi * cos phi) (1 - q)) as [r E]; [apply trig01|lra|auto|]. rewrite E. cbn [bind].
  destruct (rd_ok (cos phi * cos phi) (1 - q)) as [d E']; [apply trig01|lra|auto|]. rewrite E'. cbn [bind]. eauto.
Qed.
(** outside the domain, E and Pi are errors *)
Theorem C103_out_of_domain : forall n phi m : R,
  phi < 0 \/ m < 0 \/ PI / 2 + epsilon < phi \/ (min_positive <= phi /\ min_positive <= m /\ 1 < m * (sin phi * sin phi)) ->
  (exists e, elliptic_e phi m = Err e) /\ (exists e, elliptic_pi n phi m = Err e).
Proof.
  intros n phi m H. unfold elliptic_e, elliptic_pi. cbv zeta.
  destruct (Rltb_spec phi 0) as [P|P]; cbn [orb]; [eauto|].
  destruct (Rltb_spec m 0) as [M|M]; [eauto|].
  destruct (Rltb_spec (PI / 2 + epsilon) phi) as [Q|Q]; [eauto|].
  destruct H as [H|[H|[H|(Ha & Hb & H)]]]; try lra.
  replace (Rltb phi min_positive) with false by (symmetry; apply Rltb_false; lra).
  replace (Rltb m min_positive) with false by (symmetry; apply Rltb_false; lra).
  rewrite Rmult_assoc. replace (Rltb 1 (m * (sin phi * sin phi))) with true by (symmetry; now apply Rltb_true). eauto.
Qed.
(** the documented special values *)
Theorem C103_special_values : forall n phi m : R, 0 <= phi <= PI / 2 -> 0 <= m ->
  elliptic_f 0 m = Ok (Fin 0) /\ elliptic_e 0 m = Ok (Fin 0) /\ elliptic_pi n 0 m = Ok (Fin 0) /\
  (min_positive <= phi -> elliptic_f phi 0 = Ok (Fin phi) /\ elliptic_e phi 0 = Ok (Fin phi)) /\
  (min_positive <= phi -> m * (sin phi * sin phi) = 1 -> elliptic_pi n phi m = Ok (Inf false) /\ (min_positive <= m -> elliptic_f phi m = Ok (Inf false))) /\
  (min_positive <= phi -> m * (sin phi * sin phi) <= 1 -> n * (sin phi * sin phi) = 1 -> elliptic_pi n phi m = Ok (Inf false)).
Proof.
  intros n phi m Hp Hm. pose proof min_positive_small as MP. pose proof PI_RGT_0.
  assert (HE : 0 < epsilon) by (unfold epsilon; apply Rinv_0_lt_compat, pow_lt; lra).
  assert (F : forall a b, b <= a -> Rltb a b = false) by (intros; now apply Rltb_false).
  assert (T : forall a b, a < b -> Rltb a b = true) by (intros; now apply Rltb_true).
  assert (Z : Rabs (1 - 1) = 0) by (rewrite Rminus_eq_0; apply Rabs_R0).
  unfold elliptic_f, elliptic_e, elliptic_pi. cbv zeta. rewrite !Rmult_assoc.
  rewrite (F 0 0), (F m 0), (F phi 0), (F (PI / 2 + epsilon) 0), (F (PI / 2 + epsilon) phi), (T 0 min_positive) by lra.
  cbn [orb]. splits; auto.
  - intros K. rewrite (F phi min_positive) by lra. auto.
  - intros K E. rewrite (F phi min_positive), E, (F 1 1), Z, (T 0 (10 * epsilon)) by lra. split; auto.
    intros K'. rewrite (F m min_positive) by lra. auto.
  - intros K E E'. rewrite (F phi min_positive), (F 1 (m * (sin phi * sin phi))), E', Z, (T 0 (10 * epsilon)) by lra.
    destruct (Rltb (Rabs _) _); auto.
Qed.

(* ------------------------------------------------------------------ *)
(** * Symmetry, homogeneity and consistency of the auxiliary integrals, seen from the public functions *)

(** Pi with n = 0 is F, whenever both deliver a value and m is not below MIN_POSITIVE *)
Theorem C103_pi_zero_n : forall phi m v, min_positive <= m -> elliptic_pi 0 phi m = Ok v -> elliptic_f phi m = Ok v.
Proof.
  intros phi m v Hm. unfold elliptic_pi, elliptic_f. cbv zeta. rewrite !Rmult_0_l.
  destruct (Rltb phi 0); cbn [orb]; [discriminate|]. destruct (Rltb m 0); [discriminate|].
  destruct (Rltb (PI / 2 + epsilon) phi); [discriminate|]. destruct (Rltb phi min_positive); auto.
  replace (Rltb m min_positive) with false by (symmetry; now apply Rltb_false).
  destruct (Rltb 1 (m * sin phi * sin phi)); [discriminate|]. destruct (Rltb (Rabs (m * sin phi * sin phi - 1)) _); auto.
  replace (Rltb (Rabs (0 - 1)) (10 * epsilon)) with false.
  2:{ symmetry. apply Rltb_false. unfold epsilon. replace (0 - 1) with (- (1)) by ring. rewrite Rabs_Ropp, Rabs_R1. lra. }
  destruct (rf _ _ _); cbn [bind]; try discriminate. destruct (rj _ _ _ _); cbn [bind]; try discriminate.
  intros E. rewrite <- E. do 3 f_equal. unfold Rdiv. rewrite !Rmult_0_l. ring.
Qed.

(** * Finding: the third integral gives up on large negative n *)
Definition small x := 0 <= x <= 1.
Lemma lam_le x y z : small x -> small y -> small z -> 0 <= lam x y z <= 3.
Proof.
  intros X Y Z. unfold lam.
  assert (S : forall t, small t -> 0 <= sqrt t <= 1).
  { intros t T. split; [apply sqrt_pos|]. rewrite <- sqrt_1. apply sqrt_le_1_alt. apply T. }
  apply S in X, Y, Z. nra.
Qed.
Lemma rc_no_panic x y : rc x y <> Panic.
Proof.
  unfold rc. cbv zeta. destruct (_ || _)%bool; [discriminate|].
  destruct (if Rltb 0 y then _ else _) as [[xt yt] w].
  destruct (rc_loop _ _ _ _ _ _) as [it [ave s]]. destruct (it =? _)%nat; discriminate.
Qed.
Lemma rj_loop_fails n : forall it xt yt zt pt sum fac ave dx dy dz dp, small xt -> small yt -> small zt ->
  3 / 1000 * 4 ^ n <= pt - xt -> 3 / 1000 * 4 ^ n <= pt - yt -> 3 / 1000 * 4 ^ n <= pt - zt ->
  match rj_loop n it xt yt zt pt sum fac ave dx dy dz dp with
  | Ok (it', _, _, _) => it' = (it + n)%nat
  | Err _ => True
  | Panic => False
  end.
Proof.
  induction n as [|n IH]; intros it xt yt zt pt sum fac ave dx dy dz dp X Y Z Hx Hy Hz; cbn [rj_loop].
  { lia. }
  fold (lam xt yt zt). pose proof (lam_le _ _ _ X Y Z) as L. set (l := lam xt yt zt) in *.
  destruct (rc _ _) as [r|e|] eqn:E; cbn [bind]; auto.
  2:{ exact (rc_no_panic _ _ E). }
  assert (P4 : 1 <= 4 ^ n) by (apply pow_R1_Rle; lra). cbn [pow] in Hx, Hy, Hz.
  match goal with |- context [Rltb (Rmax ?a (Rmax ?b ?c)) (15 / 10000)] =>
    assert (D : 15 / 10000 <= c); [|replace (Rltb (Rmax a (Rmax b c)) (15 / 10000)) with false] end.
  - set (pt' := 1 / 4 * (pt + l)). set (x' := 1 / 4 * (xt + l)). set (y' := 1 / 4 * (yt + l)). set (z' := 1 / 4 * (zt + l)).
    unfold small in *.
    assert (Dx : 3 / 1000 <= pt' - x') by (unfold pt', x'; lra).
    assert (Dy : 3 / 1000 <= pt' - y') by (unfold pt', y'; lra).
    assert (Dz : 3 / 1000 <= pt' - z') by (unfold pt', z'; lra).
    assert (x' <= 1 /\ y' <= 1 /\ z' <= 1) as (Ux & Uy & Uz) by (unfold x', y', z'; lra).
    assert (0 <= x' /\ 0 <= y' /\ 0 <= z') as (Vx & Vy & Vz) by (unfold x', y', z'; lra).
    set (av := 2 / 10 * (x' + y' + z' + pt' + pt')).
    assert (A : 0 < av) by (unfold av; lra).
    rewrite Rabs_left1.
    + replace (- ((av - pt') / av)) with ((pt' - av) / av) by (field; lra).
      apply (Rmult_le_reg_r av); auto. unfold Rdiv at 2. rewrite Rmult_assoc, Rinv_l by lra. unfold av. lra.
    + unfold Rdiv. rewrite <- (Rmult_0_l (/ av)). apply Rmult_le_compat_r; [left; now apply Rinv_0_lt_compat|]. unfold av. lra.
  - match goal with |- match rj_loop n ?it ?a ?b ?c ?d ?e ?f ?g ?h ?i ?j ?k with _ => _ end =>
      pose proof (IH it a b c d e f g h i j k) as K end.
    unfold small in *.
    destruct (rj_loop _ _ _ _ _ _ _ _ _ _ _ _ _) as [[[[it' t] s] d]|e|]; auto; specialize (K ltac:(lra) ltac:(lra) ltac:(lra) ltac:(lra) ltac:(lra) ltac:(lra)); auto. lia.
  - symmetry. apply Rltb_false. eapply Rle_trans; [exact D|]. eapply Rle_trans; [apply Rmax_r|apply Rmax_r].
Qed.
Lemma rj_fails x y p : small x -> small y -> 12584 <= p -> exists e, rj x y 1 p = Err e.
Proof.
  intros X Y P. unfold rj. cbv zeta. destruct (_ || _)%bool; [eauto|].
  replace (Rltb 0 p) with true by (symmetry; apply Rltb_true; lra). cbn [bind].
  pose proof (rj_loop_fails n_max_iterations 0 x y 1 p 0 1 0 0 0 0 0 X Y) as K. unfold small in *.
  assert (F : 3 / 1000 * 4 ^ n_max_iterations <= p - 1) by (unfold n_max_iterations; lra).
  destruct (rj_loop _ _ _ _ _ _ _ _ _ _ _ _ _) as [[[[it' [[xt yt] zt]] [[s f] v]] [[[dx dy] dz] dp]]|e|]; cbn [bind].
  - rewrite K by lra. cbn [Nat.add]. rewrite Nat.eqb_refl. eauto.
  - eauto.
  - exfalso. apply K; lra.
Qed.
(** FINDING. The documentation of elliptic_pi restricts phi and m only. For a large negative n (1 - n sin^2(phi) >= 12584,
    e.g. phi = pi/2, n = -20000, m = 1/2, where the integral is about 0.011) the duplication loop of the Carlson form RJ is cut after
    N_MAX_ITERATIONS = 11 steps, each of which only divides the distance between p and the other arguments by four, so an error
    is returned for every such n. *)
Theorem C103_pi_large_n_refuted : forall n phi m : R, 0 < phi <= PI / 2 -> 0 <= m -> m * (sin phi * sin phi) <= 1 - 10 * epsilon ->
  min_positive <= phi -> n * (sin phi * sin phi) <= - 12583 -> exists e, elliptic_pi n phi m = Err e.
Proof.
  intros n phi m Hp Hm H1 Hq Hn. unfold elliptic_pi. cbv zeta. pose proof min_positive_small as MP.
  assert (HE : 0 < epsilon) by (unfold epsilon; apply Rinv_0_lt_compat, pow_lt; lra).
  assert (HE' : 10 * epsilon < 1) by (unfold epsilon; lra).
  rewrite !Rmult_assoc. set (q := m * (sin phi * sin phi)) in *. set (t := n * (sin phi * sin phi)) in *.
  assert (Q0 : 0 <= q) by (apply Rmult_le_pos; [lra|apply trig01]).
  assert (F : forall a b, b <= a -> Rltb a b = false) by (intros; now apply Rltb_false).
  rewrite (F phi 0), (F m 0), (F (PI / 2 + epsilon) phi), (F phi min_positive), (F 1 q) by lra. cbn [orb].
  rewrite (Rabs_left1 (q - 1)), (Rabs_left1 (t - 1)) by lra. rewrite (F (- (q - 1))), (F (- (t - 1))) by lra.
  destruct (rf_ok (cos phi * cos phi) (1 - q)) as [r E]; [apply trig01|lra|right; unfold epsilon in *; lra|]. rewrite E. cbn [bind].
  destruct (rj_fails (cos phi * cos phi) (1 - q) (1 - t)) as [e E']; [apply trig01|unfold small; lra|lra|].
  rewrite E'. cbn [bind]. eauto.
Qed.
Example C103_pi_large_n_example : exists e, elliptic_pi (-20000) (PI / 2) (1 / 2) = Err e.
Proof.
  pose proof PI_RGT_0. pose proof PI2_1. pose proof min_positive_small as [_ M].
  assert (/ 2 ^ 300 <= / 2 ^ 0) by (apply inv_pow_le; lia). simpl (2 ^ 0) in *.
  apply C103_pi_large_n_refuted; rewrite ?sin_PI2; unfold epsilon; lra.
Qed.

(* ------------------------------------------------------------------ *)
(** * The value of F *)
Lemma lam_between lo hi x y z : 0 <= lo -> lo <= x <= hi -> lo <= y <= hi -> lo <= z <= hi -> 3 * lo <= lam x y z <= 3 * hi.
Proof.
  intros L X Y Z. unfold lam.
  assert (S : forall t, lo <= t <= hi -> sqrt lo <= sqrt t <= sqrt hi).
  { intros t T. split; apply sqrt_le_1_alt; lra. }
  pose proof (S _ X) as SX. pose proof (S _ Y) as SY. pose proof (S _ Z) as SZ.
  pose proof (sqrt_pos lo). pose proof (sqrt_sqrt lo L). pose proof (sqrt_sqrt hi ltac:(lra)).
  split.
  - assert (sqrt lo * sqrt lo <= sqrt x * sqrt y) by (apply Rmult_le_compat; lra).
    assert (sqrt lo * sqrt lo <= sqrt x * sqrt z) by (apply Rmult_le_compat; lra).
    assert (sqrt lo * sqrt lo <= sqrt y * sqrt z) by (apply Rmult_le_compat; lra). lra.
  - assert (sqrt x * sqrt y <= sqrt hi * sqrt hi) by (apply Rmult_le_compat; lra).
    assert (sqrt x * sqrt z <= sqrt hi * sqrt hi) by (apply Rmult_le_compat; lra).
    assert (sqrt y * sqrt z <= sqrt hi * sqrt hi) by (apply Rmult_le_compat; lra). lra.
Qed.
Lemma rf_loop_spec lo hi n : 0 <= lo -> forall it x y z a b c d it' ave dx dy dz,
  lo <= x <= hi -> lo <= y <= hi -> lo <= z <= hi -> 0 < z ->
  rf_loop n it x y z a b c d = (it', (ave, dx, dy, dz)) -> (it' < it + n)%nat ->
  lo <= ave <= hi /\ 0 < ave /\ Rabs dx < 25 / 10000 /\ Rabs dy < 25 / 10000 /\ Rabs dz < 25 / 10000.
Proof.
  intros L. induction n as [|n IH]; intros it x y z a b c d it' ave dx dy dz X Y Z Z0; cbn [rf_loop].
  { intros E. inversion E. lia. }
  fold (lam x y z). pose proof (lam_between lo hi x y z L X Y Z) as B. set (l := lam x y z) in *.
  match goal with |- context [Rltb ?t (25 / 10000)] => destruct (Rltb_spec t (25 / 10000)) as [T|T] end.
  - intros E _. inversion E; subst; clear E. split; [lra|]. split; [lra|].
    apply Rmax_Rlt in T. destruct T as [T T3]. apply Rmax_Rlt in T. destruct T as [T1 T2]. auto.
  - intros E K. eapply IH; [| | | |exact E|lia]; lra.
Qed.
Lemma rf_loop_le n : forall it x y z a b c d, (fst (rf_loop n it x y z a b c d) <= it + n)%nat.
Proof.
  induction n as [|n IH]; intros; cbn [rf_loop]; [cbn; lia|].
  destruct (Rltb _ _); [cbn; lia|]. etransitivity; [apply IH|lia].
Qed.
Lemma rf_bounds lo x y r : 0 <= lo -> lo <= x <= 1 -> lo <= y <= 1 -> lo <= 1 -> rf x y 1 = Ok r ->
  exists ave s, r = s / sqrt ave /\ 0 < ave /\ lo <= ave <= 1 /\ 99999 / 100000 <= s <= 100001 / 100000.
Proof.
  intros L X Y L1. unfold rf. cbv zeta. destruct (_ || _)%bool; [discriminate|].
  destruct (rf_loop _ _ _ _ _ _ _ _ _) as [it [[[ave dx] dy] dz]] eqn:E.
  destruct (Nat.eqb_spec it n_max_iterations) as [|N]; [discriminate|]. intros H. inversion H; subst r; clear H.
  assert (Z : lo <= 1 <= 1) by lra.
  destruct (rf_loop_spec lo 1 _ L _ _ _ _ _ _ _ _ _ _ _ _ _ X Y Z ltac:(lra) E) as (A & A0 & Dx & Dy & Dz).
  { pose proof (rf_loop_le n_max_iterations 0 x y 1 0 0 0 0) as K. rewrite E in K. cbn [fst] in K. lia. }
  do 2 eexists. split; [reflexivity|]. split; [auto|]. split; [auto|].
  apply Rabs_def2 in Dx, Dy, Dz.
  assert (B : forall u v a b, - a <= u <= a -> - b <= v <= b -> - (a * b) <= u * v <= a * b) by (intros; nra).
  pose proof (B dx dy (25 / 10000) (25 / 10000) ltac:(lra) ltac:(lra)) as P.
  pose proof (B dz dz (25 / 10000) (25 / 10000) ltac:(lra) ltac:(lra)) as P'.
  pose proof (B (dx * dy) dz _ (25 / 10000) P ltac:(lra)) as P3.
  set (e3 := dx * dy * dz) in *. set (e2 := dx * dy - dz * dz) in *.
  assert (H2 : - (2 / 100000) <= e2 <= 2 / 100000) by (unfold e2; lra).
  pose proof (B (1 / 24 * e2 - 1 / 10 - 3 / 44 * e3) e2 (2 / 10) (2 / 100000) ltac:(lra) H2). lra.
Qed.
(** The value of F lies between sin(phi) and sin(phi) / sqrt(min(cos^2(phi), 1 - m sin^2(phi))), up to the factor 1e-5: it has the right
    order of magnitude, and it is positive. (The two numbers are the bounds given by the integrand of the Carlson form.) *)
Theorem C103_f_bounds : forall phi m v, min_positive <= phi -> min_positive <= m -> elliptic_f phi m = Ok (Fin v) -> 0 <= sin phi ->
  99999 / 100000 * sin phi <= v /\
  sqrt (Rmin (cos phi * cos phi) (1 - m * (sin phi * sin phi))) * v <= 100001 / 100000 * sin phi.
Proof.
  intros phi m v Hp Hm. unfold elliptic_f. cbv zeta. pose proof min_positive_small as MP.
  replace (Rltb phi 0) with false by (symmetry; apply Rltb_false; lra).
  replace (Rltb m 0) with false by (symmetry; apply Rltb_false; lra). cbn [orb].
  destruct (Rltb (PI / 2 + epsilon) phi); [discriminate|].
  replace (Rltb phi min_positive) with false by (symmetry; apply Rltb_false; lra).
  replace (Rltb m min_positive) with false by (symmetry; apply Rltb_false; lra).
  rewrite Rmult_assoc. set (q := m * (sin phi * sin phi)).
  destruct (Rltb_spec 1 q) as [|Q1]; [discriminate|].
  assert (Q0 : 0 <= q) by (apply Rmult_le_pos; [lra|apply trig01]).
  destruct (Rltb (Rabs _) _); [discriminate|].
  destruct (rf _ _ _) as [r|e|] eqn:E; cbn [bind]; try discriminate. intros H S. inversion H; subst v; clear H.
  pose proof (trig01 phi) as [C _].
  set (lo := Rmin (cos phi * cos phi) (1 - q)).
  assert (L0 : 0 <= lo) by (apply Rmin_glb; lra).
  assert (L1 : lo <= cos phi * cos phi) by apply Rmin_l.
  assert (L2 : lo <= 1 - q) by apply Rmin_r.
  assert (U1 : 1 - q <= 1) by lra. assert (U2 : lo <= 1) by lra.
  destruct (rf_bounds lo _ _ _ L0 (conj L1 (proj2 C)) (conj L2 U1) U2 E) as (ave & s & -> & A0 & A & B).
  assert (R0 : 0 < sqrt ave) by now apply sqrt_lt_R0.
  assert (R1 : sqrt ave <= 1) by (rewrite <- sqrt_1; apply sqrt_le_1_alt; lra).
  assert (R2 : sqrt lo <= sqrt ave) by (apply sqrt_le_1_alt; lra).
  pose proof (sqrt_pos lo) as R3.
  assert (I : 1 <= / sqrt ave) by (rewrite <- Rinv_1; apply Rinv_le_contravar; lra).
  split.
  - rewrite (Rmult_comm _ (sin phi)). apply Rmult_le_compat_l; auto. unfold Rdiv at 2.
    apply Rle_trans with (99999 / 100000 * 1); [lra|]. apply Rmult_le_compat; lra.
  - replace (sqrt lo * (sin phi * (s / sqrt ave))) with (s * (sqrt lo / sqrt ave) * sin phi) by (field; lra).
    apply Rmult_le_compat_r; auto.
    assert (T : sqrt lo / sqrt ave <= 1).
    { apply (Rmult_le_reg_r (sqrt ave)); auto. unfold Rdiv. rewrite Rmult_assoc, Rinv_l; lra. }
    assert (T0 : 0 <= sqrt lo / sqrt ave) by (apply Rmult_le_pos; lra).
    rewrite <- (Rmult_1_r (100001 / 100000)). apply Rmult_le_compat; lra.
Qed.

(** * Non-vacuity *)
Example C103_f_example : exists r, elliptic_f (PI / 2) (1 / 2) = Ok (Fin r) /\ 99999 / 100000 <= r.
Proof.
  pose proof PI_RGT_0. pose proof PI2_1. pose proof min_positive_small as [M0 M].
  assert (/ 2 ^ 300 <= / 2 ^ 1) by (apply inv_pow_le; lia). simpl (2 ^ 1) in *.
  assert (HE : 0 < epsilon) by (unfold epsilon; apply Rinv_0_lt_compat, pow_lt; lra).
  destruct (C103_f_domain (PI / 2) (1 / 2)) as (_ & _ & K).
  destruct K as (v & E & V & I); try lra; rewrite ?sin_PI2 in *; try lra.
  destruct V as [->|[r ->]].
  - destruct I as [I _]; try lra. specialize (I eq_refl). unfold epsilon in I. lra.
  - exists r. split; auto.
    destruct (C103_f_bounds (PI / 2) (1 / 2) r) as [B _]; auto; rewrite ?sin_PI2 in *; lra.
Qed.
Example C103_e_example : exists r, elliptic_e (PI / 4) 1 = Ok (Fin r).
Proof.
  pose proof PI_RGT_0. assert (HE : 0 < epsilon) by (unfold epsilon; apply Rinv_0_lt_compat, pow_lt; lra).
  pose proof (trig01 (PI / 4)). pose proof (sin2_cos2 (PI / 4)) as S. rewrite sin_cos_PI4 in *. unfold Rsqr in S.
  apply C103_e_domain; try lra; rewrite ?sin_cos_PI4; lra.
Qed.

Print Assumptions C103_f_domain.
Print Assumptions C103_e_domain.
Print Assumptions C103_out_of_domain.
Print Assumptions C103_special_values.
Print Assumptions C103_pi_zero_n.
Print Assumptions C103_pi_large_n_refuted.
Print Assumptions C103_f_bounds.
