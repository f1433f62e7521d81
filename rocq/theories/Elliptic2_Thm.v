(** C103, continued: the values of the Carlson integrals and of E and Pi. *)
From Coq Require Import List Bool ZArith Lia Reals Lra.
From Verif Require Import Base RBase Bessel_Model Elliptic_Model Elliptic_Thm.
Local Open Scope R_scope.
Local Open Scope string_scope.

(** t^(3/2) *)
Definition p32 (t : R) : R := t * sqrt t.
Lemma p32_mono a b : 0 <= a <= b -> p32 a <= p32 b.
Proof. intros H. unfold p32. pose proof (sqrt_pos a). apply Rmult_le_compat; try lra. apply sqrt_le_1_alt; lra. Qed.
Lemma p32_pos a : 0 < a -> 0 < p32 a.
Proof. intros H. unfold p32. apply Rmult_lt_0_compat; auto. apply sqrt_lt_R0; auto. Qed.
Lemma p32_nonneg a : 0 <= a -> 0 <= p32 a.
Proof. intros H. unfold p32. apply Rmult_le_pos; auto. apply sqrt_pos. Qed.
Lemma p32_sq a : 0 <= a -> p32 a * p32 a = a * a * a.
Proof. intros H. unfold p32. transitivity (a * a * (sqrt a * sqrt a)); [ring|]. rewrite sqrt_sqrt; auto. Qed.
Lemma div_between f w m M : 0 < f -> 0 < w -> 0 <= m -> m <= w <= M -> f / w * M >= f /\ f / w * m <= f.
Proof.
  intros F W M0 B. assert (I : 0 < / w) by now apply Rinv_0_lt_compat. assert (E : / w * w = 1) by (apply Rinv_l; lra).
  assert (1 <= / w * M) by (rewrite <- E; apply Rmult_le_compat_l; lra).
  assert (/ w * m <= 1) by (rewrite <- E; apply Rmult_le_compat_l; lra).
  unfold Rdiv. rewrite !Rmult_assoc. split; nra.
Qed.
Lemma prod_bound u v a b : - a <= u <= a -> - b <= v <= b -> - (a * b) <= u * v <= a * b.
Proof. intros. nra. Qed.

(* ------------------------------------------------------------------ *)
(** * rd *)
Lemma rd_loop_spec lo hi n : 0 <= lo -> forall it x y z sum fac a b c d it' sum' fac' ave dx dy dz,
  lo <= x <= hi -> lo <= y <= hi -> lo <= z <= hi -> 0 < z -> 0 < fac ->
  rd_loop n it x y z sum fac a b c d = (it', (sum', fac', ave, dx, dy, dz)) -> (it' < it + n)%nat ->
  lo <= ave <= hi /\ 0 < ave /\ Rabs dx < 15 / 10000 /\ Rabs dy < 15 / 10000 /\ Rabs dz < 15 / 10000 /\
  0 < fac' /\ sum <= sum' /\ fac <= 3 * (sum' - sum) * p32 hi + fac' /\ 3 * (sum' - sum) * p32 lo + fac' <= fac.
Proof.
  intros L. induction n as [|n IH]; intros it x y z sum fac a b c d it' sum' fac' ave dx dy dz X Y Z Z0 F; cbn [rd_loop].
  { intros E. inversion E. lia. }
  fold (lam x y z). pose proof (lam_between lo hi x y z L X Y Z) as B. set (l := lam x y z) in *.
  set (w := sqrt z * (z + l)). assert (W : 0 < w) by (apply Rmult_lt_0_compat; [apply sqrt_lt_R0; auto|lra]).
  assert (WB : 4 * p32 lo <= w <= 4 * p32 hi).
  { unfold w, p32. pose proof (sqrt_pos lo). assert (sqrt lo <= sqrt z) by (apply sqrt_le_1_alt; lra). assert (sqrt z <= sqrt hi) by (apply sqrt_le_1_alt; lra).
    split.
    - replace (4 * (lo * sqrt lo)) with (sqrt lo * (4 * lo)) by ring. apply Rmult_le_compat; lra.
    - replace (4 * (hi * sqrt hi)) with (sqrt hi * (4 * hi)) by ring. apply Rmult_le_compat; lra. }
  destruct (div_between fac w (4 * p32 lo) (4 * p32 hi) F W) as [D1 D2]; auto.
  { pose proof (p32_nonneg lo L). lra. }
  assert (D0 : 0 < fac / w) by (apply Rdiv_lt_0_compat; auto). set (t := fac / w) in *.
  match goal with |- context [Rltb ?t (15 / 10000)] => destruct (Rltb_spec t (15 / 10000)) as [T|T] end.
  - intros E _. inversion E; subst; clear E. split; [lra|]. split; [lra|].
    apply Rmax_Rlt in T. destruct T as [T T3]. apply Rmax_Rlt in T. destruct T as [T1 T2]. splits; auto; lra.
  - intros E K. apply IH in E; try lra; try lia; destruct E as (A1 & A2 & A3 & A4 & A5 & A6 & A7 & A8 & A9); splits; auto; lra.
Qed.
Lemma rd_loop_le n : forall it x y z s f a b c d, (fst (rd_loop n it x y z s f a b c d) <= it + n)%nat.
Proof.
  induction n as [|n IH]; intros; cbn [rd_loop]; [cbn; lia|].
  destruct (Rltb _ _); [cbn; lia|]. etransitivity; [apply IH|lia].
Qed.
(** the final sum of a duplication *)
Lemma final_sum k lo hi sum fac ave c : 0 < k <= 1 -> 0 <= lo -> lo <= ave <= hi -> 0 < ave -> 0 < fac -> 0 <= sum -> k <= c <= 2 - k ->
  k * (1 - fac) <= 3 * sum * p32 hi -> 3 * sum * p32 lo <= (2 - k) * (1 - fac) ->
  k <= (3 * sum + fac * c / (ave * sqrt ave)) * p32 hi /\ (3 * sum + fac * c / (ave * sqrt ave)) * p32 lo <= 2 - k.
Proof.
  intros K L A A0 F S C H1 H2. change (ave * sqrt ave) with (p32 ave). assert (FC : 0 < fac * c) by (apply Rmult_lt_0_compat; lra).
  destruct (div_between (fac * c) (p32 ave) (p32 lo) (p32 hi) FC) as [D1 D2].
  - now apply p32_pos.
  - now apply p32_nonneg.
  - split; apply p32_mono; lra.
  - rewrite !Rmult_plus_distr_r. split; nra.
Qed.
(** The values of rd lie between max^(-3/2) and min^(-3/2) of the arguments, up to the factor 1e-4. *)
Theorem C103_rd_bounds lo hi x y z v : 0 <= lo -> lo <= x <= hi -> lo <= y <= hi -> lo <= z <= hi -> 0 < z -> rd x y z = Ok v ->
  9999 / 10000 <= v * (hi * sqrt hi) /\ v * (lo * sqrt lo) <= 10001 / 10000.
Proof.
  intros L X Y Z Z0. unfold rd. cbv zeta. destruct (_ || _)%bool; [discriminate|].
  destruct (rd_loop _ _ _ _ _ _ _ _ _ _ _) as [it [[[[[sum fac] ave] dx] dy] dz]] eqn:E.
  destruct (Nat.eqb_spec it n_max_iterations) as [|N]; [discriminate|]. intros HH. inversion HH; subst v; clear HH.
  pose proof (rd_loop_le n_max_iterations 0 x y z 0 1 0 0 0 0) as K. rewrite E in K. cbn [fst] in K.
  destruct (rd_loop_spec lo hi n_max_iterations L 0 x y z 0 1 0 0 0 0 it sum fac ave dx dy dz) as (A1 & A2 & A3 & A4 & A5 & A6 & A7 & A8 & A9); auto; try lra; try lia.
  change (hi * sqrt hi) with (p32 hi). change (lo * sqrt lo) with (p32 lo).
  replace (10001 / 10000) with (2 - 9999 / 10000) by field.
  apply final_sum; auto; try lra.
  2:{ pose proof (p32_nonneg hi ltac:(lra)). assert (0 <= 3 * sum * p32 hi) by (apply Rmult_le_pos; lra). lra. }
  2:{ pose proof (p32_nonneg lo L). assert (0 <= 3 * sum * p32 lo) by (apply Rmult_le_pos; lra). lra. }
  apply Rabs_def2 in A3, A4, A5.
  pose proof (prod_bound dx dy (15 / 10000) (15 / 10000) ltac:(lra) ltac:(lra)) as P.
  pose proof (prod_bound dz dz (15 / 10000) (15 / 10000) ltac:(lra) ltac:(lra)) as P'.
  set (ea := dx * dy) in *. set (eb := dz * dz) in *. clearbody ea eb.
  set (ec := ea - eb). set (ed := ea - 6 * eb). set (ee := ed + ec + ec).
  assert (Hc : - (1 / 10 ^ 5) <= ec <= 1 / 10 ^ 5) by (unfold ec; lra).
  assert (Hd : - (2 / 10 ^ 5) <= ed <= 2 / 10 ^ 5) by (unfold ed; lra).
  assert (He : - (4 / 10 ^ 5) <= ee <= 4 / 10 ^ 5) by (unfold ee; lra). clearbody ec ed ee.
  pose proof (prod_bound dz ee (15 / 10000) _ ltac:(lra) He) as Q1.
  pose proof (prod_bound ed (- (3 / 14) + 1 / 4 * (9 / 22) * ed - 3 / 2 * (3 / 26) * dz * ee) _ 1 Hd ltac:(lra)) as Q2.
  pose proof (prod_bound dz ea (15 / 10000) _ ltac:(lra) P) as Q3.
  pose proof (prod_bound dz (- (9 / 22) * ec + dz * (3 / 26) * ea) (15 / 10000) 1 ltac:(lra) ltac:(lra)) as Q4.
  pose proof (prod_bound dz (1 / 6 * ee + dz * (- (9 / 22) * ec + dz * (3 / 26) * ea)) (15 / 10000) (1 / 100) ltac:(lra) ltac:(lra)) as Q5.
  lra.
Qed.

(* ------------------------------------------------------------------ *)
(** * rc *)
Lemma rc_loop_spec lo hi n : 0 <= lo -> forall it x y a b it' ave s, lo <= x <= hi -> lo <= y <= hi -> 0 < y ->
  rc_loop n it x y a b = (it', (ave, s)) -> (it' < it + n)%nat -> lo <= ave <= hi /\ 0 < ave /\ Rabs s < 12 / 10000.
Proof.
  intros L. induction n as [|n IH]; intros it x y a b it' ave s X Y Y0; cbn [rc_loop].
  { intros E. inversion E. lia. }
  assert (B : 3 * lo <= 2 * sqrt x * sqrt y + y <= 3 * hi).
  { pose proof (sqrt_pos lo). assert (sqrt lo <= sqrt x <= sqrt hi) by (split; apply sqrt_le_1_alt; lra).
    assert (sqrt lo <= sqrt y <= sqrt hi) by (split; apply sqrt_le_1_alt; lra).
    pose proof (sqrt_sqrt lo L). pose proof (sqrt_sqrt hi ltac:(lra)).
    assert (sqrt lo * sqrt lo <= sqrt x * sqrt y <= sqrt hi * sqrt hi) by (split; apply Rmult_le_compat; lra). lra. }
  assert (B0 : 0 <= 2 * sqrt x * sqrt y) by (pose proof (sqrt_pos x); pose proof (sqrt_pos y); apply Rmult_le_pos; lra).
  set (l := 2 * sqrt x * sqrt y + y) in *.
  destruct (Rltb_spec (Rabs ((1 / 4 * (y + l) - 1 / 3 * (1 / 4 * (x + l) + 1 / 4 * (y + l) + 1 / 4 * (y + l))) / (1 / 3 * (1 / 4 * (x + l) + 1 / 4 * (y + l) + 1 / 4 * (y + l))))) (12 / 10000)) as [T|T].
  - intros E _. inversion E; subst; clear E. split; [lra|]. split; [lra|auto].
  - intros E K. apply IH in E; auto; try lra; try lia.
Qed.
Lemma rc_loop_le n : forall it x y a b, (fst (rc_loop n it x y a b) <= it + n)%nat.
Proof.
  induction n as [|n IH]; intros; cbn [rc_loop]; [cbn; lia|].
  destruct (Rltb _ _); [cbn; lia|]. etransitivity; [apply IH|lia].
Qed.
(** For positive y the values of rc lie between max^(-1/2) and min^(-1/2) of the arguments, up to the factor 1e-5. *)
Theorem C103_rc_bounds lo hi x y v : 0 <= lo -> lo <= x <= hi -> lo <= y <= hi -> 0 < y -> rc x y = Ok v ->
  1 <= v * sqrt hi /\ v * sqrt lo <= 100001 / 100000.
Proof.
  intros L X Y Y0. unfold rc. cbv zeta. destruct (_ || _)%bool; [discriminate|]. destruct (Rltb_spec 0 y); [|lra].
  destruct (rc_loop _ _ _ _ _ _) as [it [ave s]] eqn:E.
  destruct (Nat.eqb_spec it n_max_iterations) as [|N]; [discriminate|]. intros HH. inversion HH; subst v; clear HH.
  pose proof (rc_loop_le n_max_iterations 0 x y 0 0) as K. rewrite E in K. cbn [fst] in K.
  destruct (rc_loop_spec lo hi n_max_iterations L 0 x y 0 0 it ave s) as (A1 & A2 & A3); auto; try lia.
  apply Rabs_def2 in A3. rewrite Rmult_1_l.
  pose proof (prod_bound s (9 / 22) (12 / 10000) 1 ltac:(lra) ltac:(lra)) as Q1.
  pose proof (prod_bound s (3 / 8 + s * (9 / 22)) (12 / 10000) 1 ltac:(lra) ltac:(lra)) as Q2.
  pose proof (prod_bound s (1 / 7 + s * (3 / 8 + s * (9 / 22))) (12 / 10000) 1 ltac:(lra) ltac:(lra)) as Q3.
  set (g := 3 / 10 + s * (1 / 7 + s * (3 / 8 + s * (9 / 22)))) in *.
  assert (G : 0 < g < 1) by (unfold g; lra). assert (S2 : 0 <= s * s <= 144 / 10 ^ 8) by (split; nra).
  assert (C : 1 <= 1 + s * s * g <= 100001 / 100000) by (split; nra). set (c := 1 + s * s * g) in *. clearbody c.
  destruct (div_between c (sqrt ave) (sqrt lo) (sqrt hi)) as [D1 D2]; try lra.
  - now apply sqrt_lt_R0.
  - apply sqrt_pos.
  - split; apply sqrt_le_1_alt; lra.
Qed.
(** For negative y the value is the Cauchy principal value: sqrt(x / (x - y)) times the value at (x - y, -y). *)
Theorem C103_rc_negative x y v : y < 0 -> x - 2 * y <= 2 / 10 * f64_max -> rc x y = Ok v ->
  exists u, rc (x - y) (- y) = Ok u /\ v = sqrt x / sqrt (x - y) * u.
Proof.
  intros Y B. unfold rc. cbv zeta.
  destruct (Rltb_spec x 0) as [|X]; [discriminate|]. destruct (Reqb_spec y 0); [lra|].
  rewrite (Rabs_left y) by auto. destruct (Rltb_spec (x + - y) (5 * min_positive)) as [|T]; [discriminate|].
  destruct (Rltb_spec (2 / 10 * f64_max) (x + - y)); [discriminate|]. cbn [orb].
  destruct (_ && _ && _)%bool; [discriminate|].
  destruct (Rltb_spec 0 y); [lra|].
  destruct (Rltb_spec (x - y) 0); [lra|]. destruct (Reqb_spec (- y) 0); [lra|]. rewrite (Rabs_pos_eq (- y)) by lra.
  destruct (Rltb_spec (x - y + - y) (5 * min_positive)); [lra|]. destruct (Rltb_spec (2 / 10 * f64_max) (x - y + - y)); [lra|]. cbn [orb].
  assert (C0 : 0 <= 2236 / 1000 / sqrt (5 * min_positive)).
  { pose proof min_positive_small. apply Rlt_le, Rdiv_lt_0_compat; [lra|]. apply sqrt_lt_R0. lra. }
  destruct (Rltb_spec (- y) (- (2236 / 1000 / sqrt (5 * min_positive)))); [lra|]. cbn [andb].
  destruct (Rltb_spec 0 (- y)); [|lra].
  destruct (rc_loop _ _ _ _ _ _) as [it [ave s]]. destruct (it =? n_max_iterations)%nat; [discriminate|].
  intros HH. inversion HH. eexists. split; [reflexivity|]. unfold Rdiv. ring.
Qed.
(** rc rejects a negative x and a zero y *)
Theorem C103_rc_domain x y : x < 0 \/ y = 0 -> exists e, rc x y = Err e.
Proof.
  intros H. unfold rc. cbv zeta. destruct (Rltb_spec x 0); [cbn [orb]; eauto|]. destruct (Reqb_spec y 0); [cbn [orb]; eauto|]. lra.
Qed.

(* ------------------------------------------------------------------ *)
(** * rj *)
Lemma rj_loop_spec lo hi n : 0 <= lo -> forall it x y z p sum fac a b c d e it' xt yt zt sum' fac' ave dx dy dz dp,
  lo <= x <= hi -> lo <= y <= hi -> lo <= z <= hi -> lo <= p <= hi -> 0 < p -> 0 < fac ->
  rj_loop n it x y z p sum fac a b c d e = Ok (it', (xt, yt, zt), (sum', fac', ave), (dx, dy, dz, dp)) -> (it' < it + n)%nat ->
  lo <= ave <= hi /\ 0 < ave /\ (Rabs dx < 15 / 10000 /\ Rabs dy < 15 / 10000 /\ Rabs dz < 15 / 10000 /\ Rabs dp < 15 / 10000) /\
  0 < fac' <= fac /\ sum <= sum' /\ fac <= 3 * (sum' - sum) * p32 hi + fac' /\ 3 * (sum' - sum) * p32 lo <= 100001 / 100000 * (fac - fac').
Proof.
  intros L. induction n as [|n IH]; intros it x y z p sum fac a b c d e it' xt yt zt sum' fac' ave dx dy dz dp X Y Z P P0 F; cbn [rj_loop].
  { intros E. inversion E. lia. }
  fold (lam x y z). pose proof (lam_between lo hi x y z L X Y Z) as B. set (l := lam x y z) in *.
  pose proof (p32_nonneg lo L) as N1. assert (N2 : p32 lo <= p32 hi) by (apply p32_mono; lra).
  set (al := p * (sqrt x + sqrt y + sqrt z) + sqrt x * sqrt y * sqrt z).
  assert (AL : 4 * p32 lo <= al <= 4 * p32 hi).
  { unfold al, p32. pose proof (sqrt_pos lo) as S0. assert (Sx : sqrt lo <= sqrt x <= sqrt hi) by (split; apply sqrt_le_1_alt; lra).
    assert (Sy : sqrt lo <= sqrt y <= sqrt hi) by (split; apply sqrt_le_1_alt; lra). assert (Sz : sqrt lo <= sqrt z <= sqrt hi) by (split; apply sqrt_le_1_alt; lra).
    pose proof (sqrt_sqrt lo L) as Q1. pose proof (sqrt_sqrt hi ltac:(lra)) as Q2. split.
    - assert (lo * (3 * sqrt lo) <= p * (sqrt x + sqrt y + sqrt z)) by (apply Rmult_le_compat; lra).
      assert (sqrt lo * sqrt lo <= sqrt x * sqrt y) by (apply Rmult_le_compat; lra).
      assert (sqrt lo * sqrt lo * sqrt lo <= sqrt x * sqrt y * sqrt z) by (apply Rmult_le_compat; lra). rewrite Q1 in H1. lra.
    - assert (p * (sqrt x + sqrt y + sqrt z) <= hi * (3 * sqrt hi)) by (apply Rmult_le_compat; lra).
      assert (0 <= sqrt x * sqrt y) by (apply Rmult_le_pos; lra).
      assert (sqrt x * sqrt y <= sqrt hi * sqrt hi) by (apply Rmult_le_compat; lra).
      assert (sqrt x * sqrt y * sqrt z <= sqrt hi * sqrt hi * sqrt hi) by (apply Rmult_le_compat; lra). rewrite Q2 in H2. lra. }
  destruct (rc (al * al) (p * ((p + l) * (p + l)))) as [r|?|] eqn:ER; cbn [bind]; try discriminate.
  assert (LO : 0 <= 16 * (p32 lo * p32 lo)) by nra.
  assert (B0 : 0 <= l) by lra.
  destruct (C103_rc_bounds (16 * (p32 lo * p32 lo)) (16 * (p32 hi * p32 hi)) (al * al) (p * ((p + l) * (p + l))) r LO) as [R1 R2]; [| | |exact ER|].
  { split.
    - replace (16 * (p32 lo * p32 lo)) with (4 * p32 lo * (4 * p32 lo)) by ring. apply Rmult_le_compat; lra.
    - replace (16 * (p32 hi * p32 hi)) with (4 * p32 hi * (4 * p32 hi)) by ring. apply Rmult_le_compat; lra. }
  { rewrite !p32_sq by lra. split.
    - replace (16 * (lo * lo * lo)) with (lo * (4 * lo * (4 * lo))) by ring. apply Rmult_le_compat; try lra; [nra|]. apply Rmult_le_compat; lra.
    - replace (16 * (hi * hi * hi)) with (hi * (4 * hi * (4 * hi))) by ring. apply Rmult_le_compat; try lra; [nra|]. apply Rmult_le_compat; lra. }
  { apply Rmult_lt_0_compat; auto. apply Rmult_lt_0_compat; lra. }
  assert (SQ : forall t, 0 <= t -> sqrt (16 * (t * t)) = 4 * t).
  { intros t T. replace (16 * (t * t)) with (4 * t * (4 * t)) by ring. apply sqrt_square. lra. }
  rewrite SQ in R1, R2 by lra.
  assert (R0 : 0 < r). { destruct (Rle_lt_dec r 0); auto. assert (r * (4 * p32 hi) <= 0) by (assert (0 <= 4 * p32 hi) by lra; nra). lra. }
  assert (R0' : 0 < fac * r) by (apply Rmult_lt_0_compat; auto).
  assert (G1 : fac <= 4 * (fac * r * p32 hi)) by nra.
  assert (G2 : 4 * (fac * r * p32 lo) <= 100001 / 100000 * fac) by nra.
  match goal with |- context [Rltb ?t (15 / 10000)] => destruct (Rltb_spec t (15 / 10000)) as [T|T] end.
  - intros E _. inversion E; subst; clear E. split; [lra|]. split; [lra|].
    apply Rmax_Rlt in T. destruct T as [T T']. apply Rmax_Rlt in T, T'. destruct T as [T1 T2]. destruct T' as [T3 T4]. splits; auto; lra.
  - intros E K. apply IH in E; try lra; try lia; destruct E as (A1 & A2 & A3 & A6 & A7 & A8 & A9); splits; auto; try tauto; lra.
Qed.
Lemma rj_loop_le n : forall it x y z p s f a b c d e it' t u w,
  rj_loop n it x y z p s f a b c d e = Ok (it', t, u, w) -> (it' <= it + n)%nat.
Proof.
  induction n as [|n IH]; intros it x y z p s f a b c d e it' t u w; cbn [rj_loop]; [intros E; inversion E; lia|].
  destruct (rc _ _); cbn [bind]; try discriminate. destruct (Rltb _ _); [intros E; inversion E; lia|]. intros E. apply IH in E. lia.
Qed.
(** For positive p the values of rj lie between max^(-3/2) and min^(-3/2) of the arguments, up to the factor 1e-4. *)
Theorem C103_rj_bounds lo hi x y z p v : 0 <= lo -> lo <= x <= hi -> lo <= y <= hi -> lo <= z <= hi -> lo <= p <= hi -> 0 < p -> rj x y z p = Ok v ->
  9999 / 10000 <= v * (hi * sqrt hi) /\ v * (lo * sqrt lo) <= 10001 / 10000.
Proof.
  intros L X Y Z P P0. unfold rj. cbv zeta. destruct (_ || _)%bool; [discriminate|]. destruct (Rltb_spec 0 p); [|lra]. cbn [bind].
  destruct (rj_loop _ _ _ _ _ _ _ _ _ _ _ _ _) as [[[[it [[xt yt] zt]] [[sum fac] ave]] [[[dx dy] dz] dp]]|?|] eqn:E; cbn [bind]; try discriminate.
  destruct (Nat.eqb_spec it n_max_iterations) as [|N]; [discriminate|]. destruct (Rleb_spec p 0); [lra|]. intros HH. inversion HH; subst v; clear HH.
  pose proof (rj_loop_le _ _ _ _ _ _ _ _ _ _ _ _ _ _ _ _ _ E) as K.
  eapply (rj_loop_spec lo hi) in E; auto; try lra; try lia. destruct E as (A1 & A2 & (A3 & A4 & A5 & A6) & A7 & A8 & A9 & A10).
  change (hi * sqrt hi) with (p32 hi). change (lo * sqrt lo) with (p32 lo).
  replace (10001 / 10000) with (2 - 9999 / 10000) by field.
  match goal with |- context [fac * ?c / _] => set (cc := c) end.
  assert (C : 9999 / 10000 <= cc <= 2 - 9999 / 10000).
  2:{ apply final_sum; auto; lra. }
  apply Rabs_def2 in A3, A4, A5, A6. unfold cc. clear cc A1 A2 A7 A8 A9 A10 K.
  pose proof (prod_bound dx (dy + dz) (15 / 10000) (30 / 10000) ltac:(lra) ltac:(lra)) as Q1.
  pose proof (prod_bound dy dz (15 / 10000) (15 / 10000) ltac:(lra) ltac:(lra)) as Q2.
  pose proof (prod_bound dx dy (15 / 10000) (15 / 10000) ltac:(lra) ltac:(lra)) as Q3.
  pose proof (prod_bound (dx * dy) dz _ (15 / 10000) Q3 ltac:(lra)) as Q4.
  pose proof (prod_bound dp dp (15 / 10000) (15 / 10000) ltac:(lra) ltac:(lra)) as Q5.
  set (ea := dx * (dy + dz) + dy * dz) in *. set (eb := dx * dy * dz) in *. set (ec := dp * dp) in *.
  assert (Ha : - (1 / 10 ^ 5) <= ea <= 1 / 10 ^ 5) by (unfold ea; lra). clearbody ea eb ec.
  set (ed := ea - 3 * ec). assert (Hd : - (2 / 10 ^ 5) <= ed <= 2 / 10 ^ 5) by (unfold ed; lra).
  pose proof (prod_bound (2 * dp) (ea - ec) (3 / 1000) (2 / 10 ^ 5) ltac:(lra) ltac:(lra)) as Q6.
  set (ee := eb + 2 * dp * (ea - ec)). assert (He : - (1 / 10 ^ 6) <= ee <= 1 / 10 ^ 6) by (unfold ee; lra). clearbody ed ee.
  pose proof (prod_bound ed (- (3 / 14) + 3 / 4 * (3 / 22) * ed - 3 / 2 * (3 / 26) * ee) _ 1 Hd ltac:(lra)) as Q7.
  pose proof (prod_bound dp (- (2 * (3 / 22)) + dp * (3 / 26)) (15 / 10000) 1 ltac:(lra) ltac:(lra)) as Q8.
  pose proof (prod_bound eb (1 / 2 * (1 / 3) + dp * (- (2 * (3 / 22)) + dp * (3 / 26))) (1 / 10 ^ 6) 1 ltac:(lra) ltac:(lra)) as Q9.
  pose proof (prod_bound dp ea (15 / 10000) _ ltac:(lra) Ha) as Q10.
  pose proof (prod_bound (dp * ea) (1 / 3 - dp * (3 / 22)) (1 / 10 ^ 6) 1 ltac:(lra) ltac:(lra)) as Q11.
  pose proof (prod_bound dp ec (15 / 10000) (1 / 10 ^ 5) ltac:(lra) ltac:(lra)) as Q12.
  lra.
Qed.

(* ------------------------------------------------------------------ *)
(** * E and Pi compared with F *)
(** E is below F by at least m sin^3(phi) / 3 (up to the factor 1e-4): the correction term has the right sign and size. *)
Theorem C103_e_below_f : forall phi m e f, min_positive <= phi -> min_positive <= m -> 0 <= sin phi ->
  elliptic_e phi m = Ok (Fin e) -> elliptic_f phi m = Ok (Fin f) ->
  9999 / 10000 * (m * (sin phi * sin phi)) * sin phi / 3 <= f - e.
Proof.
  intros phi m e f Hp Hm S. unfold elliptic_e, elliptic_f. cbv zeta. pose proof min_positive_small as MP.
  replace (Rltb phi 0) with false by (symmetry; apply Rltb_false; lra).
  replace (Rltb m 0) with false by (symmetry; apply Rltb_false; lra). cbn [orb].
  destruct (Rltb (PI / 2 + epsilon) phi); [discriminate|].
  replace (Rltb phi min_positive) with false by (symmetry; apply Rltb_false; lra).
  replace (Rltb m min_positive) with false by (symmetry; apply Rltb_false; lra).
  rewrite !(Rmult_assoc m). set (q := m * (sin phi * sin phi)).
  destruct (Rltb_spec 1 q) as [|Q1]; [discriminate|].
  assert (Q0 : 0 <= q) by (apply Rmult_le_pos; [lra|apply trig01]). pose proof (trig01 phi) as [C _].
  destruct (Rltb (Rabs _) _); [discriminate|].
  destruct (rf _ _ _) as [r|?|]; cbn [bind]; try discriminate. destruct (rd _ _ _) as [d|?|] eqn:D; cbn [bind]; try discriminate.
  intros E F. inversion E; subst e. inversion F; subst f. clear E F.
  destruct (C103_rd_bounds 0 1 (cos phi * cos phi) (1 - q) 1 d) as [B _]; auto; try lra. rewrite sqrt_1 in B.
  assert (G : 9999 / 10000 * q <= q * d) by nra. assert (0 <= sin phi * (q * d - 9999 / 10000 * q)) by (apply Rmult_le_pos; lra). lra.
Qed.
(** The third integral exceeds F by at least n sin^3(phi) / 3 when n > 0 (with n sin^2 < 1), and is below F when n < 0. *)
Theorem C103_pi_versus_f : forall n phi m p f, min_positive <= phi -> min_positive <= m -> 0 <= sin phi -> n * (sin phi * sin phi) < 1 ->
  elliptic_pi n phi m = Ok (Fin p) -> elliptic_f phi m = Ok (Fin f) ->
  (0 <= n -> 9999 / 10000 * (n * (sin phi * sin phi)) * sin phi / 3 <= p - f) /\
  (n <= 0 -> let t := 1 - n * (sin phi * sin phi) in
     9999 / 10000 * (- n * (sin phi * sin phi)) * sin phi / 3 <= (f - p) * (t * sqrt t)).
Proof.
  intros n phi m p f Hp Hm S N. unfold elliptic_pi, elliptic_f. cbv zeta. pose proof min_positive_small as MP.
  replace (Rltb phi 0) with false by (symmetry; apply Rltb_false; lra).
  replace (Rltb m 0) with false by (symmetry; apply Rltb_false; lra). cbn [orb].
  destruct (Rltb (PI / 2 + epsilon) phi); [discriminate|].
  replace (Rltb phi min_positive) with false by (symmetry; apply Rltb_false; lra).
  replace (Rltb m min_positive) with false by (symmetry; apply Rltb_false; lra).
  rewrite !(Rmult_assoc m), !(Rmult_assoc n). set (q := m * (sin phi * sin phi)). set (w := n * (sin phi * sin phi)) in *.
  destruct (Rltb_spec 1 q) as [|Q1]; [discriminate|].
  assert (Q0 : 0 <= q) by (apply Rmult_le_pos; [lra|apply trig01]). pose proof (trig01 phi) as [C SS].
  destruct (Rltb (Rabs (q - 1)) _); [discriminate|]. destruct (Rltb (Rabs (w - 1)) _); [discriminate|].
  destruct (rf _ _ _) as [r|?|]; cbn [bind]; try discriminate. destruct (rj _ _ _ _) as [j|?|] eqn:J; cbn [bind]; try discriminate.
  intros E F. inversion E; subst p. inversion F; subst f. clear E F. split; intros NS.
  - assert (W : 0 <= w) by (apply Rmult_le_pos; [auto|apply trig01]).
    destruct (C103_rj_bounds 0 1 (cos phi * cos phi) (1 - q) 1 (1 - w) j) as [B _]; auto; try lra. rewrite sqrt_1 in B.
    assert (G : 9999 / 10000 * w <= w * j) by nra. assert (0 <= sin phi * (w * j - 9999 / 10000 * w)) by (apply Rmult_le_pos; lra). lra.
  - assert (W : w <= 0) by (unfold w; nra). replace (- n * (sin phi * sin phi)) with (- w) by (unfold w; ring).
    destruct (C103_rj_bounds 0 (1 - w) (cos phi * cos phi) (1 - q) 1 (1 - w) j) as [B _]; auto; try lra.
    set (k := (1 - w) * sqrt (1 - w)) in *. clearbody k.
    assert (0 <= sin phi * (- w * (j * k - 9999 / 10000))) by (apply Rmult_le_pos; [lra|]; apply Rmult_le_pos; lra). lra.
Qed.

(* ------------------------------------------------------------------ *)
(** * Equal arguments, symmetry *)
Lemma close_zero a b c : 0 < c -> a = 0 -> b = 0 -> Rltb (Rmax (Rmax (Rabs a) (Rabs a)) (Rabs b)) c = true.
Proof. intros C -> ->. rewrite Rabs_R0. apply Rltb_true. unfold Rmax. repeat destruct (Rle_dec _ _); lra. Qed.
Lemma sq3 t : 0 < t -> sqrt t * (sqrt t + sqrt t) + sqrt t * sqrt t = 3 * t.
Proof. intros T. rewrite Rmult_plus_distr_l, sqrt_sqrt by lra. ring. Qed.
Lemma rc_loop_eq n it t a b : 0 < t -> rc_loop (S n) it t t a b = (it, (t, 0)).
Proof.
  intros T. cbn [rc_loop]. replace (2 * sqrt t * sqrt t + t) with (3 * t) by (rewrite Rmult_assoc, sqrt_sqrt; lra).
  replace (1 / 4 * (t + 3 * t)) with t by field. replace (1 / 3 * (t + t + t)) with t by field.
  replace ((t - t) / t) with 0 by (field; lra). rewrite Rabs_R0. destruct (Rltb_spec 0 (12 / 10000)); [auto|lra].
Qed.
Lemma rf_loop_eq n it t a b c d : 0 < t -> rf_loop (S n) it t t t a b c d = (it, (t, 0, 0, 0)).
Proof.
  intros T. cbn [rf_loop]. rewrite sq3 by auto.
  replace (1 / 4 * (t + 3 * t)) with t by field. replace (1 / 3 * (t + t + t)) with t by field.
  replace ((t - t) / t) with 0 by (field; lra). rewrite close_zero by lra. auto.
Qed.
Lemma rd_loop_eq n it t a b c d : 0 < t -> rd_loop (S n) it t t t 0 1 a b c d = (it, (/ (4 * t * sqrt t), 1 / 4, t, 0, 0, 0)).
Proof.
  intros T. assert (S : 0 < sqrt t) by now apply sqrt_lt_R0. cbn [rd_loop]. rewrite sq3 by auto.
  replace (1 / 4 * (t + 3 * t)) with t by field. replace (2 / 10 * (t + t + 3 * t)) with t by field.
  replace ((t - t) / t) with 0 by (field; lra). rewrite close_zero by lra. do 6 f_equal; field; lra.
Qed.
Lemma rc_eq t v : 0 < t -> rc t t = Ok v -> v = / sqrt t.
Proof.
  intros T. unfold rc. cbv zeta. destruct (_ || _)%bool; [discriminate|]. destruct (Rltb_spec 0 t); [|lra].
  change (rc_loop n_max_iterations) with (rc_loop (S 10)). rewrite rc_loop_eq by auto. change (0 =? n_max_iterations)%nat with false.
  intros HH. inversion HH. assert (0 < sqrt t) by now apply sqrt_lt_R0. field. lra.
Qed.
Lemma rj_loop_eq n it t a b c d e r : 0 < t -> rj_loop (S n) it t t t t 0 1 a b c d e = Ok r ->
  r = (it, (t, t, t), (/ (4 * t * sqrt t), 1 / 4, t), (0, 0, 0, 0)).
Proof.
  intros T. assert (S : 0 < sqrt t) by now apply sqrt_lt_R0. cbn [rj_loop]. rewrite sq3 by auto.
  set (al := t * (sqrt t + sqrt t + sqrt t) + sqrt t * sqrt t * sqrt t).
  assert (AL : al = 4 * t * sqrt t) by (unfold al; rewrite sqrt_sqrt by lra; ring). rewrite AL. clear al AL.
  replace (t * ((t + 3 * t) * (t + 3 * t))) with (4 * t * sqrt t * (4 * t * sqrt t)).
  2:{ transitivity (16 * t * t * (sqrt t * sqrt t)); [ring|]. rewrite sqrt_sqrt by lra. ring. }
  destruct (rc _ _) as [u|?|] eqn:ER; cbn [bind]; try discriminate.
  assert (P : 0 < 4 * t * sqrt t) by (apply Rmult_lt_0_compat; lra).
  apply rc_eq in ER; [|apply Rmult_lt_0_compat; auto]. rewrite sqrt_square in ER by lra. subst u.
  replace (1 / 4 * (t + 3 * t)) with t by field. replace (2 / 10 * (t + t + t + t + t)) with t by field.
  replace ((t - t) / t) with 0 by (field; lra). rewrite Rabs_R0.
  replace (Rmax (Rmax 0 0) (Rmax 0 0)) with 0 by (unfold Rmax; repeat destruct (Rle_dec _ _); lra).
  destruct (Rltb_spec 0 (15 / 10000)); [|lra]. intros HH. inversion HH. do 4 f_equal; field; lra.
Qed.
(** For equal arguments t the integrals are t^(-1/2) (rf and rc) and t^(-3/2) (rd and rj). *)
Theorem C103_equal_arguments t v : 0 < t ->
  (rf t t t = Ok v -> v = / sqrt t) /\ (rc t t = Ok v -> v = / sqrt t) /\
  (rd t t t = Ok v -> v = / (t * sqrt t)) /\ (rj t t t t = Ok v -> v = / (t * sqrt t)).
Proof.
  intros T. assert (S : 0 < sqrt t) by now apply sqrt_lt_R0. splits.
  - unfold rf. cbv zeta. destruct (_ || _)%bool; [discriminate|]. change (rf_loop n_max_iterations) with (rf_loop (Datatypes.S 10)).
    rewrite rf_loop_eq by auto. change (0 =? n_max_iterations)%nat with false. intros HH. inversion HH. field. lra.
  - now apply rc_eq.
  - unfold rd. cbv zeta. destruct (_ || _)%bool; [discriminate|]. change (rd_loop n_max_iterations) with (rd_loop (Datatypes.S 10)).
    rewrite rd_loop_eq by auto. change (0 =? n_max_iterations)%nat with false. intros HH. inversion HH. field. lra.
  - unfold rj. cbv zeta. destruct (_ || _)%bool; [discriminate|]. destruct (Rltb_spec 0 t); [|lra]. cbn [bind].
    change (rj_loop n_max_iterations) with (rj_loop (Datatypes.S 10)).
    destruct (rj_loop (Datatypes.S 10) _ _ _ _ _ _ _ _ _ _ _ _) as [r|?|] eqn:E; cbn [bind]; try discriminate. apply rj_loop_eq in E; auto. subst r.
    change (0 =? n_max_iterations)%nat with false. destruct (Rleb_spec t 0); [lra|]. intros HH. inversion HH. field. lra.
Qed.

Lemma lam_sym x y z : lam x y z = lam y x z /\ lam x y z = lam x z y.
Proof. unfold lam. split; ring. Qed.
Definition swap12 (r : nat * (R * R * R * R)) : nat * (R * R * R * R) := let '(it, (ave, dx, dy, dz)) := r in (it, (ave, dy, dx, dz)).
Definition swap23 (r : nat * (R * R * R * R)) : nat * (R * R * R * R) := let '(it, (ave, dx, dy, dz)) := r in (it, (ave, dx, dz, dy)).
Lemma rf_loop_sym n : forall it x y z a b c d,
  rf_loop n it y x z a c b d = swap12 (rf_loop n it x y z a b c d) /\ rf_loop n it x z y a b d c = swap23 (rf_loop n it x y z a b c d).
Proof.
  induction n as [|n IH]; intros; cbn [rf_loop]; [auto|].
  fold (lam x y z). fold (lam y x z). fold (lam x z y). destruct (lam_sym x y z) as [<- <-]. set (l := lam x y z).
  replace (1 / 3 * (1 / 4 * (y + l) + 1 / 4 * (x + l) + 1 / 4 * (z + l))) with (1 / 3 * (1 / 4 * (x + l) + 1 / 4 * (y + l) + 1 / 4 * (z + l))) by ring.
  replace (1 / 3 * (1 / 4 * (x + l) + 1 / 4 * (z + l) + 1 / 4 * (y + l))) with (1 / 3 * (1 / 4 * (x + l) + 1 / 4 * (y + l) + 1 / 4 * (z + l))) by ring.
  set (ave := 1 / 3 * _). set (dx := (ave - 1 / 4 * (x + l)) / ave). set (dy := (ave - 1 / 4 * (y + l)) / ave). set (dz := (ave - 1 / 4 * (z + l)) / ave).
  rewrite (Rmax_comm (Rabs dy) (Rabs dx)).
  replace (Rmax (Rmax (Rabs dx) (Rabs dz)) (Rabs dy)) with (Rmax (Rmax (Rabs dx) (Rabs dy)) (Rabs dz)).
  2:{ rewrite <- !Rmax_assoc. f_equal. apply Rmax_comm. }
  destruct (Rltb _ _); [auto|]. apply IH.
Qed.
Lemma rf_loop_zero n : forall it x y z a b c d it' ave dx dy dz, 0 <= x -> 0 <= y -> 0 <= z -> 0 < x + y + z -> b + c + d = 0 ->
  rf_loop n it x y z a b c d = (it', (ave, dx, dy, dz)) -> dx + dy + dz = 0.
Proof.
  induction n as [|n IH]; intros it x y z a b c d it' ave dx dy dz X Y Z P Q; cbn [rf_loop]; [intros E; inversion E; subst; auto|].
  fold (lam x y z). assert (L : 0 <= lam x y z) by (unfold lam; pose proof (sqrt_pos x); pose proof (sqrt_pos y); pose proof (sqrt_pos z); nra).
  set (l := lam x y z) in *. destruct (Rltb _ _); [intros E; inversion E; field; lra|].
  intros E. eapply IH; [| | | | |exact E]; lra.
Qed.
(** rf is symmetric in its three arguments. *)
Theorem C103_rf_symmetric x y z : rf x y z = rf y x z /\ rf x y z = rf x z y.
Proof.
  unfold rf. cbv zeta. rewrite (Rmin_comm y x), (Rplus_comm y x), (Rmax_comm y x).
  replace (Rmin (Rmin (x + y) (y + z)) (x + z)) with (Rmin (Rmin (x + y) (x + z)) (y + z)) by (rewrite <- !Rmin_assoc; f_equal; apply Rmin_comm).
  replace (Rmin (Rmin x z) y) with (Rmin (Rmin x y) z) by (rewrite <- !Rmin_assoc; f_equal; apply Rmin_comm).
  rewrite (Rmin_comm (x + z) (x + y)), (Rplus_comm z y).
  replace (Rmax (Rmax x z) y) with (Rmax (Rmax x y) z) by (rewrite <- !Rmax_assoc; f_equal; apply Rmax_comm).
  destruct (Rltb_spec (Rmin (Rmin x y) z) 0) as [|N]; [cbn [orb]; auto|].
  destruct (Rltb_spec (Rmin (Rmin (x + y) (x + z)) (y + z)) (5 * min_positive)) as [|N']; [cbn [orb]; auto|].
  cbn [orb]. destruct (Rltb _ _); [auto|].
  assert (X : 0 <= x). { pose proof (Rmin_l (Rmin x y) z). pose proof (Rmin_l x y). lra. }
  assert (Y : 0 <= y). { pose proof (Rmin_l (Rmin x y) z). pose proof (Rmin_r x y). lra. }
  assert (Z : 0 <= z). { pose proof (Rmin_r (Rmin x y) z). lra. }
  assert (P : 0 < x + y + z). { pose proof min_positive_small. pose proof (Rmin_r (Rmin (x + y) (x + z)) (y + z)). lra. }
  destruct (rf_loop_sym n_max_iterations 0 x y z 0 0 0 0) as [-> ->].
  destruct (rf_loop n_max_iterations 0 x y z 0 0 0 0) as [it [[[ave dx] dy] dz]] eqn:E. cbn [swap12 swap23].
  apply rf_loop_zero in E; auto; try lra.
  destruct (it =? n_max_iterations)%nat; [auto|]. replace dz with (- dx - dy) by lra. split; do 2 f_equal; ring.
Qed.
(** rd is symmetric in its first two arguments. *)
Lemma rd_loop_sym n : forall it x y z s f a b c d,
  rd_loop n it y x z s f a c b d = (let '(it', (s', f', a', b', c', d')) := rd_loop n it x y z s f a b c d in (it', (s', f', a', c', b', d'))).
Proof.
  induction n as [|n IH]; intros; cbn [rd_loop]; [auto|].
  fold (lam x y z). fold (lam y x z). destruct (lam_sym x y z) as [<- _]. set (l := lam x y z).
  replace (2 / 10 * (1 / 4 * (y + l) + 1 / 4 * (x + l) + 3 * (1 / 4 * (z + l)))) with (2 / 10 * (1 / 4 * (x + l) + 1 / 4 * (y + l) + 3 * (1 / 4 * (z + l)))) by ring.
  set (ave := 2 / 10 * _). set (dx := (ave - 1 / 4 * (x + l)) / ave). set (dy := (ave - 1 / 4 * (y + l)) / ave).
  rewrite (Rmax_comm (Rabs dy) (Rabs dx)). destruct (Rltb _ _); [auto|]. apply IH.
Qed.
Theorem C103_rd_symmetric x y z : rd x y z = rd y x z.
Proof.
  unfold rd. cbv zeta. rewrite (Rmin_comm y x), (Rplus_comm y x), (Rmax_comm y x). destruct (_ || _)%bool; [auto|].
  rewrite (rd_loop_sym n_max_iterations 0 x y z). destruct (rd_loop _ _ _ _ _ _ _ _ _ _ _) as [it [[[[[sum fac] ave] dx] dy] dz]].
  destruct (it =? n_max_iterations)%nat; [auto|]. rewrite (Rmult_comm dy dx). auto.
Qed.

(** The hypotheses are met: the integrals of ones are accepted, and the comparison of E and F applies at phi = pi/2, m = 1/2. *)
Example C103_values_case : rf 1 1 1 = Ok (/ sqrt 1) /\ rd 1 1 1 = Ok (/ (1 * sqrt 1)) /\
  exists e f, elliptic_e (PI / 2) (1 / 2) = Ok (Fin e) /\ elliptic_f (PI / 2) (1 / 2) = Ok (Fin f) /\ e < f.
Proof.
  pose proof PI_RGT_0. pose proof PI2_1. pose proof min_positive_small as [M0 M].
  assert (/ 2 ^ 300 <= / 2 ^ 1) by (apply inv_pow_le; lia). simpl (2 ^ 1) in *.
  assert (HE : 0 < epsilon) by (unfold epsilon; apply Rinv_0_lt_compat, pow_lt; lra).
  splits.
  - destruct (rf_ok 1 1) as [r E]; try lra. destruct (C103_equal_arguments 1 r) as [K _]; [lra|]. rewrite E, (K E). auto.
  - destruct (rd_ok 1 1) as [r E]; try lra. destruct (C103_equal_arguments 1 r) as (_ & _ & K & _); [lra|]. rewrite E, (K E). auto.
  - destruct C103_f_example as (f & F & _). destruct (C103_e_domain (PI / 2) (1 / 2)) as [e E]; rewrite ?sin_PI2; try lra.
    exists e, f. splits; auto. pose proof (C103_e_below_f (PI / 2) (1 / 2) e f) as K. rewrite sin_PI2 in K.
    specialize (K ltac:(lra) ltac:(lra) ltac:(lra) E F). lra.
Qed.

Print Assumptions C103_rd_bounds.
Print Assumptions C103_rc_bounds.
Print Assumptions C103_rc_negative.
Print Assumptions C103_rc_domain.
Print Assumptions C103_rj_bounds.
Print Assumptions C103_e_below_f.
Print Assumptions C103_pi_versus_f.
Print Assumptions C103_equal_arguments.
Print Assumptions C103_rf_symmetric.
Print Assumptions C103_rd_symmetric.
