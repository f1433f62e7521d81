(** C105: the gamma and beta functions. *)
From Coq Require Import List Bool ZArith Lia Reals Lra.
From Verif Require Import Base RBase Bessel_Model Gamma_Model.
Import ListNotations.
Local Open Scope R_scope.

(* ------------------------------------------------------------------ *)
(** * Integers and floor *)
Lemma int_part_bounds x : IZR (Int_part x) <= x < IZR (Int_part x) + 1.
Proof. destruct (base_Int_part x) as [A B]. lra. Qed.
Lemma int_part_unique x k : IZR k <= x < IZR k + 1 -> Int_part x = k.
Proof.
  intros H. pose proof (int_part_bounds x) as B.
  assert (IZR (Int_part x) < IZR (k + 1)) by (rewrite plus_IZR; lra).
  assert (IZR k < IZR (Int_part x + 1)) by (rewrite plus_IZR; lra).
  apply lt_IZR in H0. apply lt_IZR in H1. lia.
Qed.
Definition integer (x : R) : Prop := exists k : Z, x = IZR k.
Lemma floor_integer x : x = floorR x <-> integer x.
Proof.
  unfold floorR, integer. split; [intros H; eauto|]. intros [k ->]. f_equal. symmetry. apply int_part_unique. lra.
Qed.
Lemma is_neg_integer_iff x : is_neg_integer x = true <-> x < 0 /\ integer x.
Proof.
  unfold is_neg_integer. rewrite andb_true_iff. rewrite <- floor_integer.
  destruct (Rltb_spec x 0); destruct (Reqb_spec x (floorR x)); intuition (try congruence; try lra).
Qed.
Lemma not_neg_integer x : ~ (x < 0 /\ integer x) -> is_neg_integer x = false.
Proof. intros H. destruct (is_neg_integer x) eqn:E; auto. apply is_neg_integer_iff in E. contradiction. Qed.
Lemma integer_plus x k : integer x -> integer (x + IZR k).
Proof. intros [j ->]. exists (j + k)%Z. now rewrite plus_IZR. Qed.
Lemma integer_minus1 x : integer (x + 1) -> integer x.
Proof. intros [j E]. exists (j - 1)%Z. rewrite minus_IZR. lra. Qed.

(* ------------------------------------------------------------------ *)
(** * gamma *)
Section G.
Variables core gs : R -> R.
Variables euler sqrt_two_pi : R.
Notation gamma := (Gamma_Model.gamma core gs euler sqrt_two_pi).

(** the value that the reductions define *)
Inductive ev : R -> R -> Prop :=
| ev_down x r : 3 <= x -> ev (x - 1) r -> ev x ((x - 1) * r)
| ev_tiny x : x <> 0 -> - / 10 ^ 9 < x < / 10 ^ 9 -> ev x (1 / ((1 + euler * x) * x))
| ev_up x r : x < 2 -> x <= - / 10 ^ 9 \/ / 10 ^ 9 <= x -> ev (x + 1) r -> ev x (r / x)
| ev_two : ev 2 1
| ev_core x : 2 < x < 3 -> ev x (core (x - 2)).

Lemma ev_det x r : ev x r -> forall s, ev x s -> r = s.
Proof.
  induction 1; intros s Hs; inversion Hs; subst; auto; try lra.
  - f_equal. auto.
  - f_equal. auto.
Qed.

Lemma small9 : 0 < / 10 ^ 9 < 1. Proof. lra. Qed.

Lemma reduce2_ev fuel : forall xx z, 0 < xx < 3 -> 3 - xx < INR fuel ->
  exists r, ev xx r /\ reduce2 core euler fuel xx z = Some (Fin (z * r)).
Proof.
  induction fuel as [|n IH]; intros xx z X F; [cbn in F; lra|]. cbn [reduce2]. pose proof small9. rewrite S_INR in F.
  destruct (Rltb_spec xx 2) as [L|L].
  - destruct (Rltb_spec xx (/ 10 ^ 9)) as [T|T].
    + destruct (Reqb_spec xx 0); [lra|]. exists (1 / ((1 + euler * xx) * xx)). split; [apply ev_tiny; lra|].
      do 2 f_equal. unfold Rdiv. ring.
    + destruct (IH (xx + 1) (z / xx)) as (r & E & V); [lra|lra|].
      exists (r / xx). split; [apply ev_up; auto; lra|]. rewrite V. do 2 f_equal. unfold Rdiv. ring.
  - destruct (Reqb_spec xx 2) as [->|N].
    + exists 1. split; [apply ev_two|]. now rewrite Rmult_1_r.
    + exists (core (xx - 2)). split; [apply ev_core; lra|]. auto.
Qed.
Lemma reduce1_ev fuel : forall xx z, xx < 3 -> ~ (xx <= 0 /\ integer xx) -> 4 - xx < INR fuel ->
  exists r, ev xx r /\ reduce1 core euler fuel xx z = Some (Fin (z * r)).
Proof.
  induction fuel as [|n IH]; intros xx z X I F; [cbn in F; lra|]. cbn [reduce1]. pose proof small9. rewrite S_INR in F.
  destruct (Rltb_spec xx 0) as [L|L].
  - destruct (Rltb_spec (- / 10 ^ 9) xx) as [T|T].
    + destruct (Reqb_spec xx 0); [lra|]. exists (1 / ((1 + euler * xx) * xx)). split; [apply ev_tiny; lra|].
      do 2 f_equal. unfold Rdiv. ring.
    + destruct (IH (xx + 1) (z / xx)) as (r & E & V); [lra| |lra|].
      { intros [A B]. apply I. split; [lra|]. now apply integer_minus1. }
      exists (r / xx). split; [apply ev_up; auto; lra|]. rewrite V. do 2 f_equal. unfold Rdiv. ring.
  - assert (0 < xx). { destruct (Req_dec xx 0) as [->|]; [|lra]. exfalso. apply I. split; [lra|]. now exists 0%Z. }
    apply reduce2_ev; lra.
Qed.
Lemma reduce0_ev fuel : forall xx z, ~ (xx <= 0 /\ integer xx) -> - 34 < xx -> 42 < INR fuel -> xx < INR fuel - 42 ->
  exists r, ev xx r /\ reduce0 core euler fuel xx z = Some (Fin (z * r)).
Proof.
  induction fuel as [|n IH]; intros xx z I L K F; [cbn in F; lra|]. cbn [reduce0]. rewrite S_INR in F, K.
  destruct (Rleb_spec 3 xx) as [T|T].
  - destruct (IH (xx - 1) (z * (xx - 1))) as (r & E & V); [|lra|lra|lra|].
    { intros [A _]. lra. }
    exists ((xx - 1) * r). split; [now apply ev_down|]. rewrite V. do 2 f_equal. ring.
  - apply reduce1_ev; auto; lra.
Qed.
Lemma inr80 : INR 80 = 80. Proof. rewrite INR_IZR_INZ. reflexivity. Qed.
Lemma gamma_ev x : - 33 <= x <= 33 -> ~ (x <= 0 /\ integer x) -> exists r, ev x r /\ gamma (Fin x) = Some (Fin r).
Proof.
  intros B I. unfold Gamma_Model.gamma.
  rewrite not_neg_integer by (intros [A C]; apply I; split; [lra|auto]).
  destruct (Reqb_spec x 0) as [->|N]. { exfalso. apply I. split; [lra|]. now exists 0%Z. }
  replace (Rltb 33 (Rabs x)) with false.
  2:{ symmetry. apply Rltb_false. apply Rabs_le. lra. }
  cbv zeta. destruct (reduce0_ev 80 x 1 I) as (r & E & V); [lra|rewrite inr80; lra|rewrite inr80; lra|]. rewrite V, Rmult_1_l. eauto.
Qed.

(** Special values: poles, infinities, NaN, and the function is total (the loops end). *)
Theorem C105_gamma_special :
  gamma NaN = Some NaN /\ gamma (Inf true) = Some NaN /\ gamma (Inf false) = Some (Inf false) /\ gamma (Fin 0) = Some (Inf false) /\
  (forall n : Z, (n < 0)%Z -> gamma (Fin (IZR n)) = Some NaN) /\
  (forall x, gamma x <> None).
Proof.
  assert (Z : gamma (Fin 0) = Some (Inf false)).
  { unfold Gamma_Model.gamma. rewrite not_neg_integer by lra. destruct (Reqb_spec 0 0); auto. lra. }
  splits; auto.
  - intros n H. unfold Gamma_Model.gamma. replace (is_neg_integer (IZR n)) with true; auto. symmetry. apply is_neg_integer_iff.
    split; [now apply IZR_lt|now exists n].
  - intros [|[]|x]; try discriminate.
    destruct (Rle_dec (-33) x) as [A|A], (Rle_dec x 33) as [B|B].
    + destruct (is_neg_integer x) eqn:I; [unfold Gamma_Model.gamma; rewrite I; discriminate|].
      destruct (Req_dec x 0) as [->|N]; [rewrite Z; discriminate|].
      destruct (gamma_ev x) as (r & _ & ->); [lra| |discriminate]. intros [C D].
      assert (is_neg_integer x = true) by (apply is_neg_integer_iff; split; [lra|auto]). congruence.
    + unfold Gamma_Model.gamma. destruct (is_neg_integer x); [discriminate|]. destruct (Reqb x 0); [discriminate|]. cbv zeta.
      replace (Rltb 33 (Rabs x)) with true by (symmetry; apply Rltb_true; rewrite Rabs_pos_eq; lra).
      replace (Rleb 0 x) with true by (symmetry; apply Rleb_true; lra). destruct (stirling _ _ x) as [[]|]; discriminate.
    + unfold Gamma_Model.gamma. destruct (is_neg_integer x); [discriminate|]. destruct (Reqb x 0); [discriminate|]. cbv zeta.
      replace (Rltb 33 (Rabs x)) with true by (symmetry; apply Rltb_true; rewrite Rabs_left; lra).
      replace (Rleb 0 x) with false by (symmetry; apply Rleb_false; lra).
      destruct (Reqb _ 0); [discriminate|]. destruct (stirling _ _ _) as [[]|]; discriminate.
    + lra.
Qed.
(** The functional equation Gamma(x + 1) = x Gamma(x) holds exactly between -33 and 33, except within 1e-9 of zero. *)
Theorem C105_gamma_recurrence : forall x, - 33 <= x <= 32 -> ~ (x <= 0 /\ integer x) -> / 10 ^ 9 <= Rabs x ->
  exists r, gamma (Fin x) = Some (Fin r) /\ gamma (Fin (x + 1)) = Some (Fin (x * r)).
Proof.
  intros x B I T. pose proof small9.
  destruct (gamma_ev x) as (r & E & V); [lra|auto|].
  destruct (gamma_ev (x + 1)) as (s & E' & V'); [lra| |].
  { intros [C D]. apply I. split; [lra|]. now apply integer_minus1. }
  exists r. split; auto. rewrite V'. do 2 f_equal.
  assert (X : x <> 0) by (intros ->; rewrite Rabs_R0 in T; lra).
  destruct (Rle_dec 2 x) as [L|L].
  - assert (K : ev (x + 1) (x * r)).
    { replace (x * r) with ((x + 1 - 1) * r) by ring. apply ev_down; [lra|]. now replace (x + 1 - 1) with x by ring. }
    exact (ev_det _ _ E' _ K).
  - assert (K : ev x (s / x)).
    { apply ev_up; [lra| |auto]. destruct (Rcase_abs x); [rewrite Rabs_left in T; lra|rewrite Rabs_pos_eq in T; lra]. }
    rewrite (ev_det _ _ E _ K). field. auto.
Qed.
(** Gamma(n + 1) = n! exactly, up to n = 32. *)
Theorem C105_gamma_factorial : forall n, (n <= 32)%nat -> gamma (Fin (INR n + 1)) = Some (Fin (INR (fact n))).
Proof.
  induction n as [|n IH]; intros L.
  - destruct (gamma_ev (INR 0 + 1)) as (r & E & V); [cbn; lra|cbn; lra|]. rewrite V. do 2 f_equal.
    apply (ev_det _ _ E). cbn [INR fact]. replace (0 + 1) with 1 by ring. replace 1 with (1 / 1) at 2 by field.
    apply ev_up; [lra|lra|]. replace (1 + 1) with 2 by ring. apply ev_two.
  - specialize (IH ltac:(lia)).
    assert (B : INR n <= 31) by (replace 31 with (INR 31) by (simpl; lra); apply le_INR; lia). pose proof (pos_INR n).
    destruct (C105_gamma_recurrence (INR n + 1)) as (r & E & V); [lra|lra| |].
    { rewrite Rabs_pos_eq; lra. }
    rewrite E in IH. inversion IH; subst r. rewrite S_INR, V. do 2 f_equal.
    rewrite fact_simpl, mult_INR, S_INR. reflexivity.
Qed.
(** Above 33 Stirling's formula is used, in the same form on both sides of the threshold 143.01608; above 200 the result is +Inf. *)
Theorem C105_gamma_stirling : forall x, 33 < x ->
  (x <= 200 -> gamma (Fin x) = Some (Fin (sqrt_two_pi * (1 + / x * gs (/ x)) * (Rpower x (x - 1 / 2) / exp x)))) /\
  (200 < x -> gamma (Fin x) = Some (Inf false)).
Proof.
  intros x X. unfold Gamma_Model.gamma. rewrite not_neg_integer by lra. destruct (Reqb_spec x 0); [lra|]. cbv zeta.
  rewrite Rabs_pos_eq by lra.
  replace (Rltb 33 x) with true by (symmetry; apply Rltb_true; lra).
  replace (Rleb 0 x) with true by (symmetry; apply Rleb_true; lra).
  unfold stirling. destruct (Rltb_spec 200 x) as [L|L]; split; intros H'; try lra; auto.
  replace (1 / x) with (/ x) by (field; lra).
  destruct (Rltb max_stirling x); do 2 f_equal.
  - replace (x - 1 / 2) with ((1 / 2 * x - 1 / 4) + (1 / 2 * x - 1 / 4)) by field. rewrite Rpower_plus.
    unfold Rdiv. ring.
  - unfold Rdiv. ring.
Qed.

Lemma sin_shift m f : sin (PI * (INR m + f)) = (if Nat.even m then 1 else -1) * sin (PI * f).
Proof.
  induction m as [|m IH].
  - cbn. replace (PI * (0 + f)) with (PI * f) by ring. ring.
  - rewrite S_INR. replace (PI * (INR m + 1 + f)) with (PI * (INR m + f) + PI) by ring. rewrite neg_sin, IH.
    rewrite Nat.even_succ, <- Nat.negb_even. destruct (Nat.even m); cbn; ring.
Qed.
(** Below -33 the reflection formula Gamma(x) Gamma(-x) = - pi / (x sin(pi x)) holds exactly, signs included. *)
Theorem C105_gamma_reflection : forall q, 33 < q <= 200 -> ~ integer q -> forall h, gamma (Fin q) = Some (Fin h) -> h <> 0 ->
  exists g, gamma (Fin (- q)) = Some (Fin g) /\ g * h = - PI / (- q * sin (PI * - q)).
Proof.
  intros q Q I h Hh H0. pose proof (int_part_bounds q) as B.
  assert (P0 : (0 <= Int_part q)%Z).
  { apply le_IZR. assert (IZR (-1) < IZR (Int_part q)) by lra. apply lt_IZR in H. apply IZR_le. lia. }
  assert (Hst : exists y1 y2, stirling gs sqrt_two_pi q = Some (y1, y2) /\ h = y1 * y2).
  { revert Hh. unfold Gamma_Model.gamma. rewrite not_neg_integer by lra. destruct (Reqb_spec q 0); [lra|]. cbv zeta.
    rewrite Rabs_pos_eq by lra. replace (Rltb 33 q) with true by (symmetry; apply Rltb_true; lra).
    replace (Rleb 0 q) with true by (symmetry; apply Rleb_true; lra).
    destruct (stirling gs sqrt_two_pi q) as [[y1 y2]|]; [|discriminate]. intros E. inversion E. eauto. }
  destruct Hst as (y1 & y2 & Es & ->).
  unfold Gamma_Model.gamma. rewrite not_neg_integer.
  2:{ intros [_ [k E]]. apply I. exists (- k)%Z. rewrite opp_IZR. lra. }
  destruct (Reqb_spec (- q) 0); [lra|]. cbv zeta. rewrite Rabs_Ropp, Rabs_pos_eq by lra.
  replace (Rltb 33 q) with true by (symmetry; apply Rltb_true; lra).
  replace (Rleb 0 (- q)) with false by (symmetry; apply Rleb_false; lra).
  set (p := Int_part q) in *. set (f := q - IZR p).
  assert (F : 0 < f < 1).
  { unfold f. split; [|lra]. destruct (Req_dec q (IZR p)) as [E|E]; [|lra]. exfalso. apply I. now exists p. }
  assert (SF : 0 < sin (PI * f)).
  { pose proof PI_RGT_0. apply sin_gt_0; [apply Rmult_lt_0_compat; lra|]. rewrite <- (Rmult_1_r PI) at 2. apply Rmult_lt_compat_l; lra. }
  set (z := if Rltb (1 / 2) f then q - IZR (p + 1) else f).
  assert (SZ : Rabs (q * sin (PI * z)) = q * sin (PI * f)).
  { rewrite Rabs_mult, (Rabs_pos_eq q) by lra. f_equal. unfold z. destruct (Rltb (1 / 2) f); [|now rewrite Rabs_pos_eq by lra].
    replace (PI * (q - IZR (p + 1))) with (- (PI - PI * f)).
    - rewrite sin_neg, Rabs_Ropp, sin_PI_x, Rabs_pos_eq; lra.
    - unfold f. rewrite plus_IZR. ring. }
  assert (PQ : 0 < q * sin (PI * f)) by (apply Rmult_lt_0_compat; lra).
  destruct (Reqb_spec (q * sin (PI * z)) 0) as [E|_]; [rewrite E, Rabs_R0 in SZ; lra|].
  rewrite Es. eexists. split; [reflexivity|]. rewrite SZ.
  replace (PI * - q) with (- (PI * q)) by ring. rewrite sin_neg.
  replace q with (INR (Z.to_nat p) + f) at 3.
  2:{ rewrite INR_IZR_INZ, Z2Nat.id by auto. unfold f. ring. }
  rewrite sin_shift.
  replace (Nat.even (Z.to_nat p)) with (Z.even p).
  2:{ rewrite <- (Z2Nat.id p) at 1 by auto. generalize (Z.to_nat p). intros m. induction m as [|m IH]; auto.
      rewrite Nat2Z.inj_succ, Z.even_succ, Nat.even_succ, <- Z.negb_even, <- Nat.negb_even. now rewrite IH. }
  assert (y1 <> 0 /\ y2 <> 0) as [N1 N2] by (split; intros ->; apply H0; ring).
  destruct (Z.even p); field; repeat split; auto; lra.
Qed.
End G.

(* ------------------------------------------------------------------ *)
(** * beta *)
Definition pole (x : R) : Prop := x <= 0 /\ integer x.
(** sign and absolute value *)
Definition sgn (x : R) : Z := if Rltb x 0 then (-1)%Z else 1%Z.
(** [gam] and [lgam] compute a function G: gamma where its value is in the range of f64, infinite at zero; ln_gamma the
    logarithm and the sign everywhere, +Inf at the poles *)
Definition computes (G : R -> R) (gam : R -> xr) (lgam : R -> xr * Z) : Prop :=
  (forall x, ~ pole x -> G x <> 0) /\
  (forall x, ~ pole x -> Rabs x <= gamma_max -> gam x = Fin (G x)) /\ gam 0 = Inf false /\
  (forall x, ~ pole x -> lgam x = (Fin (ln (Rabs (G x))), sgn (G x))) /\
  (forall x, pole x -> lgam x = (Inf false, 1%Z)).
(** the expansion for one large argument is not used *)
Definition balanced (a b : R) : Prop := ~ (10 ^ 6 * Rabs b < Rabs a /\ 10 ^ 6 < a) /\ ~ (10 ^ 6 * Rabs a < Rabs b /\ 10 ^ 6 < b).

Lemma sgn_abs x : IZR (sgn x) * Rabs x = x.
Proof. unfold sgn. destruct (Rltb_spec x 0); [rewrite Rabs_left by auto|rewrite Rabs_pos_eq by auto]; ring. Qed.
Lemma sgn_sq x : IZR (sgn x) * IZR (sgn x) = 1.
Proof. unfold sgn. destruct (Rltb x 0); ring. Qed.
Lemma not_pole_guard x : ~ pole x -> Rleb x 0 && Reqb x (floorR x) = false.
Proof.
  intros H. destruct (Rleb_spec x 0); auto. destruct (Reqb_spec x (floorR x)) as [E|]; auto.
  exfalso. apply H. split; auto. now apply floor_integer.
Qed.
Lemma pole_guard x : pole x -> Rleb x 0 && Reqb x (floorR x) = true.
Proof.
  intros [A B]. apply floor_integer in B. destruct (Rleb_spec x 0); [|lra]. destruct (Reqb_spec x (floorR x)); auto.
Qed.

Section B.
Variable G : R -> R.
Variable gam : R -> xr.
Variable lgam : R -> xr * Z.
Hypothesis C : computes G gam lgam.
Notation beta := (Gamma_Model.beta gam lgam).
Notation ln_beta := (Gamma_Model.ln_beta gam lgam).

Lemma identity_fin aa bb cc : ~ pole aa -> ~ pole bb -> Rabs aa <= gamma_max -> Rabs bb <= gamma_max -> Rabs cc <= gamma_max ->
  (~ pole cc -> gamma_identity gam aa bb cc = Fin (G aa * G bb / G cc)) /\ (cc = 0 -> gamma_identity gam aa bb cc = Fin 0).
Proof.
  destruct C as (N & Hg & H0 & _ & _). intros A B La Lb Lc. unfold gamma_identity. rewrite (Hg aa A La), (Hg bb B Lb). split.
  - intros D. rewrite (Hg cc D Lc). specialize (N cc D). unfold xdiv. destruct (Reqb_spec (G cc) 0); [contradiction|].
    destruct (xltb _ _); cbn; f_equal; field; auto.
  - intros ->. rewrite H0. cbn. f_equal. ring.
Qed.
Lemma log_fin aa bb cc : ~ pole aa -> ~ pole bb -> ~ pole cc ->
  xsub (xadd (fst (lgam aa)) (fst (lgam bb))) (fst (lgam cc)) = Fin (ln (Rabs (G aa * G bb / G cc))) /\
  IZR (snd (lgam aa) * snd (lgam bb) * snd (lgam cc)) * exp (ln (Rabs (G aa * G bb / G cc))) = G aa * G bb / G cc.
Proof.
  destruct C as (N & _ & _ & Hl & _). intros A B D. rewrite (Hl aa A), (Hl bb B), (Hl cc D). cbn [fst snd xadd xsub xneg].
  pose proof (N _ A) as NA. pose proof (N _ B) as NB. pose proof (N _ D) as ND.
  pose proof (Rabs_pos_lt _ NA). pose proof (Rabs_pos_lt _ NB). pose proof (Rabs_pos_lt _ ND).
  assert (E : Rabs (G aa * G bb / G cc) = Rabs (G aa) * Rabs (G bb) / Rabs (G cc)).
  { unfold Rdiv. rewrite !Rabs_mult, Rabs_inv. auto. }
  rewrite E. split.
  - f_equal. unfold Rdiv. rewrite !ln_mult, ln_Rinv; auto. apply Rmult_lt_0_compat; auto. now apply Rinv_0_lt_compat.
  - rewrite exp_ln. 2:{ apply Rmult_lt_0_compat; [apply Rmult_lt_0_compat; auto|now apply Rinv_0_lt_compat]. }
    rewrite !mult_IZR. rewrite <- (sgn_abs (G aa)) at 3. rewrite <- (sgn_abs (G bb)) at 3. rewrite <- (sgn_abs (G cc)) at 3.
    assert (S : / (IZR (sgn (G cc)) * Rabs (G cc)) = IZR (sgn (G cc)) * / Rabs (G cc)).
    { unfold sgn. destruct (Rltb _ 0); field; lra. }
    unfold Rdiv. rewrite S. ring.
Qed.
Lemma main_value a b : ~ pole a -> ~ pole b -> balanced a b ->
  (pole (a + b) -> beta_main gam lgam a b = Fin 0) /\
  (~ pole (a + b) -> ln (Rabs (G a * G b / G (a + b))) <= ln_max \/ (Rabs a <= gamma_max /\ Rabs b <= gamma_max /\ Rabs (a + b) <= gamma_max) ->
     beta_main gam lgam a b = Fin (G a * G b / G (a + b))).
Proof.
  intros A B [U V]. unfold beta_main.
  assert (K : forall aa bb, ~ pole aa -> ~ pole bb -> ~ (10 ^ 6 * Rabs bb < Rabs aa /\ 10 ^ 6 < aa) -> aa + bb = a + b ->
    G aa * G bb = G a * G b -> 
    (Rabs aa <= gamma_max /\ Rabs bb <= gamma_max <-> Rabs a <= gamma_max /\ Rabs b <= gamma_max) ->
    let r := (if Rltb (asymptotic_factor * Rabs bb) (Rabs aa) && Rltb asymptotic_factor aa then
      let '(ll, sign) := ln_beta_asymptotic lgam aa bb in xmul (Fin (IZR sign)) (xexp ll)
      else
        let cc := aa + bb in
        if Rltb gamma_max (Rabs cc) || Rltb gamma_max (Rabs aa) || Rltb gamma_max (Rabs bb) then
          let '(la, sign_la) := lgam aa in
          let '(lb, sign_lb) := lgam bb in
          let '(lc, sign_lc) := lgam cc in
          let sign := (sign_la * sign_lb * sign_lc)%Z in
          let ll := xsub (xadd la lb) lc in
          if xltb (Fin ln_max) ll then xmul (Fin (IZR sign)) (Inf false)
          else xmul (Fin (IZR sign)) (xexp ll)
        else if is_neg_integer cc then Fin 0
        else gamma_identity gam aa bb cc) in
    (pole (a + b) -> r = Fin 0) /\
    (~ pole (a + b) -> ln (Rabs (G a * G b / G (a + b))) <= ln_max \/ (Rabs a <= gamma_max /\ Rabs b <= gamma_max /\ Rabs (a + b) <= gamma_max) ->
       r = Fin (G a * G b / G (a + b)))).
  { intros aa bb Aa Bb Nas Es Ep Er. cbv zeta. rewrite Es.
    replace (Rltb (asymptotic_factor * Rabs bb) (Rabs aa) && Rltb asymptotic_factor aa) with false.
    2:{ symmetry. unfold asymptotic_factor. destruct (Rltb_spec (10 ^ 6 * Rabs bb) (Rabs aa)); auto.
        destruct (Rltb_spec (10 ^ 6) aa); auto. exfalso. auto. }
    destruct (Rltb gamma_max (Rabs (a + b)) || Rltb gamma_max (Rabs aa) || Rltb gamma_max (Rabs bb)) eqn:Hr.
    - destruct (lgam aa) as [la sa] eqn:Ea. destruct (lgam bb) as [lb sb] eqn:Eb. destruct (lgam (a + b)) as [lc sc] eqn:Ec.
      split.
      + intros P. destruct C as (_ & _ & _ & Hl & Hp). rewrite (Hl aa Aa) in Ea. rewrite (Hl bb Bb) in Eb. rewrite (Hp _ P) in Ec.
        inversion Ea; inversion Eb; inversion Ec; subst. cbn. f_equal. ring.
      + intros P H. destruct (log_fin aa bb (a + b) Aa Bb P) as [L1 L2]. rewrite Ea, Eb, Ec in L1, L2. cbn [fst snd] in L1, L2.
        rewrite L1. cbn [xltb xexp xmul]. rewrite Ep in *.
        destruct H as [H|(Ha & Hb & Hc)].
        * replace (Rltb ln_max (ln (Rabs (G a * G b / G (a + b))))) with false by (symmetry; now apply Rltb_false). now rewrite L2.
        * exfalso. apply orb_true_iff in Hr. rewrite orb_true_iff in Hr. destruct Er as [_ Er]. specialize (Er (conj Ha Hb)).
          destruct Hr as [[Hr|Hr]|Hr]; apply Rltb_true in Hr; lra.
    - apply orb_false_iff in Hr. destruct Hr as [Hr R3]. apply orb_false_iff in Hr. destruct Hr as [R1 R2].
      apply Rltb_false in R1, R2, R3. destruct (identity_fin aa bb (a + b)) as [I1 I2]; auto. split.
      + intros [P1 P2]. destruct (is_neg_integer (a + b)) eqn:En; auto. apply I2.
        destruct (Req_dec (a + b) 0); auto. exfalso.
        assert (is_neg_integer (a + b) = true) by (apply is_neg_integer_iff; split; [lra|auto]). congruence.
      + intros P _. rewrite not_neg_integer by (intros [P1 P2]; apply P; split; [lra|auto]). rewrite I1, Ep; auto. }
  destruct (Rltb (Rabs a) (Rabs b)).
  - apply (K b a); auto; try ring. tauto.
  - apply (K a b); auto; tauto.
Qed.
Lemma beta_main_used a b : ~ pole a -> ~ pole b -> beta (Fin a) (Fin b) = Some (beta_main gam lgam a b).
Proof. intros A B. cbn [Gamma_Model.beta beta_rec]. rewrite !not_pole_guard by auto. auto. Qed.

(** B(a,b) = Gamma(a) Gamma(b) / Gamma(a+b): away from the poles, zero where a + b is a pole, unless it overflows. *)
Theorem C105_beta_identity : forall a b, ~ pole a -> ~ pole b -> balanced a b ->
  (pole (a + b) -> beta (Fin a) (Fin b) = Some (Fin 0)) /\
  (~ pole (a + b) -> ln (Rabs (G a * G b / G (a + b))) <= ln_max \/ (Rabs a <= gamma_max /\ Rabs b <= gamma_max /\ Rabs (a + b) <= gamma_max) ->
     beta (Fin a) (Fin b) = Some (Fin (G a * G b / G (a + b)))).
Proof.
  intros a b A B U. rewrite beta_main_used by auto. destruct (main_value a b A B U) as [M1 M2].
  split; intros; f_equal; auto.
Qed.

Lemma pos_not_pole x : 0 < x -> ~ pole x.
Proof. intros H [A _]. lra. Qed.
Lemma pole_dec x : pole x \/ ~ pole x.
Proof.
  destruct (Rleb x 0 && Reqb x (floorR x)) eqn:E.
  - left. apply andb_true_iff in E. destruct E as [E1 E2]. apply Rleb_true in E1. apply Reqb_true in E2. split; auto. now apply floor_integer.
  - right. intros P. rewrite pole_guard in E by auto. discriminate.
Qed.
Lemma rec2 p q : pole p -> 0 < 1 - p - q ->
  beta_rec gam lgam 2 (1 - p - q) q = Some (if Rleb q 0 && Reqb q (floorR q) then Inf false else beta_main gam lgam (1 - p - q) q) /\
  ln_beta_rec gam lgam 2 (1 - p - q) q = Some (if Rleb q 0 && Reqb q (floorR q) then Inf false else ln_beta_main gam lgam (1 - p - q) q).
Proof.
  intros [P _] H. cbn [beta_rec ln_beta_rec]. rewrite (not_pole_guard (1 - p - q)) by now apply pos_not_pole.
  destruct (Rleb q 0 && Reqb q (floorR q)); auto.
  replace (Rltb 0 (1 - q - (1 - p - q))) with false by (symmetry; apply Rltb_false; lra). rewrite andb_false_r.
  destruct (Reqb q (IZR (as_i32 q))); auto.
Qed.
(** NaN and infinite arguments give NaN; every call returns a number, an infinity or NaN (the mutual recursion ends). *)
Theorem C105_beta_total : forall a b,
  (a = NaN \/ b = NaN \/ (exists s, a = Inf s) \/ (exists s, b = Inf s) -> beta a b = Some NaN /\ ln_beta a b = Some NaN) /\
  beta a b <> None /\ ln_beta a b <> None.
Proof.
  intros a b. split.
  - intros [->|[->|[[s ->]|[s ->]]]]; [|destruct a|destruct b|destruct a]; auto.
  - destruct a as [| |a]; [split; discriminate..|]. destruct b as [| |b]; [split; discriminate..|].
    unfold Gamma_Model.beta, Gamma_Model.ln_beta.
    destruct (pole_dec a) as [A|A]; [|destruct (pole_dec b) as [B|B]].
    + pose proof (fun H => rec2 a b A H) as Q. revert Q. change 3%nat with (S 2). generalize 2%nat. intros n Q. cbn [beta_rec ln_beta_rec].
      rewrite pole_guard by auto. destruct (Reqb a (IZR (as_i32 a))); [|split; discriminate].
      destruct (Reqb b (IZR (as_i32 b))); [|split; discriminate]. cbn [andb].
      destruct (Rltb_spec 0 (1 - a - b)); [|split; discriminate].
      destruct Q as [E1 E2]; [assumption|]. rewrite E1, E2. split; discriminate.
    + pose proof (fun H => rec2 b a B H) as Q. revert Q. change 3%nat with (S 2). generalize 2%nat. intros n Q. cbn [beta_rec ln_beta_rec].
      rewrite (not_pole_guard a), pole_guard by auto. destruct (Reqb b (IZR (as_i32 b))); [|split; discriminate].
      destruct (Reqb a (IZR (as_i32 a))); [|split; discriminate]. cbn [andb].
      destruct (Rltb_spec 0 (1 - b - a)); [|split; discriminate].
      destruct Q as [E1 E2]; [assumption|]. rewrite E1, E2. split; discriminate.
    + cbn [beta_rec ln_beta_rec]. rewrite !not_pole_guard by auto. split; discriminate.
Qed.
Lemma symmetric_regular : forall a b, ~ pole a -> ~ pole b -> beta (Fin a) (Fin b) = beta (Fin b) (Fin a) /\
  ln_beta (Fin a) (Fin b) = ln_beta (Fin b) (Fin a).
Proof.
  intros a b A B. rewrite !beta_main_used by auto.
  assert (EL : forall u v, ~ pole u -> ~ pole v -> ln_beta (Fin u) (Fin v) = Some (ln_beta_main gam lgam u v)).
  { intros u v U V. cbn [Gamma_Model.ln_beta ln_beta_rec]. now rewrite !not_pole_guard by auto. }
  rewrite !EL by auto.
  destruct (Rtotal_order (Rabs a) (Rabs b)) as [H|[H|H]].
  - unfold beta_main, ln_beta_main. destruct (Rltb_spec (Rabs a) (Rabs b)); [|lra]. destruct (Rltb_spec (Rabs b) (Rabs a)); [lra|]. auto.
  - destruct (Req_dec a b) as [->|N]; auto.
    assert (E : a = - b) by (unfold Rabs in H; destruct (Rcase_abs a), (Rcase_abs b); lra). subst a.
    assert (Pb : pole (- b + b)) by (split; [lra|]; exists 0%Z; ring).
    assert (Pb' : pole (b + - b)) by (split; [lra|]; exists 0%Z; ring).
    pose proof (Rabs_pos b).
    assert (Bal : balanced (- b) b /\ balanced b (- b)) by (unfold balanced; rewrite Rabs_Ropp; split; split; intros [X _]; lra).
    split.
    + destruct Bal. destruct (main_value (- b) b) as [M _]; auto. destruct (main_value b (- b)) as [M' _]; auto. now rewrite M, M'.
    + f_equal. unfold ln_beta_main. rewrite Rabs_Ropp. destruct (Rltb_spec (Rabs b) (Rabs b)); [lra|].
      rewrite !Rabs_Ropp. unfold asymptotic_factor. destruct (Rltb_spec (10 ^ 6 * Rabs b) (Rabs b)); [lra|]. cbn [andb].
      replace (b + - b) with 0 by ring. replace (- b + b) with 0 by ring.
      destruct C as (_ & Hg & Hz & Hl & Hp).
      rewrite (Hl b), (Hl (- b)) by auto. rewrite (Hp 0) by (split; [lra|]; exists 0%Z; ring).
      rewrite <- orb_assoc, orb_diag. destruct (Rltb gamma_max (Rabs 0) || Rltb gamma_max (Rabs b)) eqn:Hr; [cbn; auto|].
      apply orb_false_iff in Hr. destruct Hr as [_ Hr]. apply Rltb_false in Hr.
      assert (G0 : Rabs 0 <= gamma_max) by (rewrite Rabs_R0; lra).
      assert (Hr' : Rabs (- b) <= gamma_max) by now rewrite Rabs_Ropp.
      destruct (is_neg_integer 0); auto.
      destruct (identity_fin b (- b) 0) as [_ I1]; auto. destruct (identity_fin (- b) b 0) as [_ I2]; auto. rewrite I1, I2 by auto. auto.
  - unfold beta_main, ln_beta_main. destruct (Rltb_spec (Rabs a) (Rabs b)); [lra|]. destruct (Rltb_spec (Rabs b) (Rabs a)); [|lra]. auto.
Qed.
(** The symmetry B(a,b) = B(b,a) holds unless both arguments are non-positive integers. *)
Theorem C105_beta_symmetric : forall a b, ~ (pole a /\ pole b) -> beta (Fin a) (Fin b) = beta (Fin b) (Fin a) /\
  ln_beta (Fin a) (Fin b) = ln_beta (Fin b) (Fin a).
Proof.
  intros a b N. destruct (pole_dec a) as [A|A]; destruct (pole_dec b) as [B|B].
  - tauto.
  - unfold Gamma_Model.beta, Gamma_Model.ln_beta. change 3%nat with (S 2). generalize 2%nat. intros n. cbn [beta_rec ln_beta_rec].
    now rewrite (pole_guard a), (not_pole_guard b) by auto.
  - unfold Gamma_Model.beta, Gamma_Model.ln_beta. change 3%nat with (S 2). generalize 2%nat. intros n. cbn [beta_rec ln_beta_rec].
    now rewrite (pole_guard b), (not_pole_guard a) by auto.
  - now apply symmetric_regular.
Qed.

(** ln_beta is ln |B(a,b)|: wherever logarithms are used, and elsewhere as long as |B| is at least ten machine epsilons. *)
Theorem C105_ln_beta_identity : forall a b, ~ pole a -> ~ pole b -> balanced a b ->
  (pole (a + b) -> ln_beta (Fin a) (Fin b) = Some (Inf true)) /\
  (~ pole (a + b) -> 10 * / 2 ^ 52 <= Rabs (G a * G b / G (a + b)) \/ gamma_max < Rabs a \/ gamma_max < Rabs b \/ gamma_max < Rabs (a + b) ->
     ln_beta (Fin a) (Fin b) = Some (Fin (ln (Rabs (G a * G b / G (a + b)))))) /\
  (~ pole (a + b) -> Rabs (G a * G b / G (a + b)) < 10 * / 2 ^ 52 -> Rabs a <= gamma_max -> Rabs b <= gamma_max -> Rabs (a + b) <= gamma_max ->
     ln_beta (Fin a) (Fin b) = Some (Inf true)).
Proof.
  intros a b A B Bal.
  assert (K : forall a b, ~ pole a -> ~ pole b -> balanced a b -> Rabs b <= Rabs a ->
    (pole (a + b) -> ln_beta (Fin a) (Fin b) = Some (Inf true)) /\
    (~ pole (a + b) -> 10 * / 2 ^ 52 <= Rabs (G a * G b / G (a + b)) \/ gamma_max < Rabs a \/ gamma_max < Rabs b \/ gamma_max < Rabs (a + b) ->
       ln_beta (Fin a) (Fin b) = Some (Fin (ln (Rabs (G a * G b / G (a + b)))))) /\
    (~ pole (a + b) -> Rabs (G a * G b / G (a + b)) < 10 * / 2 ^ 52 -> Rabs a <= gamma_max -> Rabs b <= gamma_max -> Rabs (a + b) <= gamma_max ->
       ln_beta (Fin a) (Fin b) = Some (Inf true))).
  { clear a b A B Bal. intros a b A B [U _] L.
    cbn [Gamma_Model.ln_beta ln_beta_rec]. rewrite !not_pole_guard by auto. unfold ln_beta_main.
    replace (Rltb (Rabs a) (Rabs b)) with false by (symmetry; now apply Rltb_false).
    replace (Rltb (asymptotic_factor * Rabs b) (Rabs a) && Rltb asymptotic_factor a) with false.
    2:{ symmetry. unfold asymptotic_factor. destruct (Rltb_spec (10 ^ 6 * Rabs b) (Rabs a)); auto.
        destruct (Rltb_spec (10 ^ 6) a); auto. exfalso. auto. }
    cbv zeta.
    destruct (Rltb gamma_max (Rabs (a + b)) || Rltb gamma_max (Rabs a) || Rltb gamma_max (Rabs b)) eqn:Hr.
    - destruct (lgam a) as [la sa] eqn:Ea. destruct (lgam b) as [lb sb] eqn:Eb. destruct (lgam (a + b)) as [lc sc] eqn:Ec.
      splits.
      + intros P. destruct C as (_ & _ & _ & Hl & Hp). rewrite (Hl a A) in Ea. rewrite (Hl b B) in Eb. rewrite (Hp _ P) in Ec.
        inversion Ea; inversion Eb; inversion Ec; subst. auto.
      + intros P _. destruct (log_fin a b (a + b) A B P) as [L1 _]. rewrite Ea, Eb, Ec in L1. cbn [fst snd] in L1. now rewrite L1.
      + intros P _ La Lb Lc. exfalso. apply orb_true_iff in Hr. rewrite orb_true_iff in Hr.
        destruct Hr as [[Hr|Hr]|Hr]; apply Rltb_true in Hr; lra.
    - apply orb_false_iff in Hr. destruct Hr as [Hr R3]. apply orb_false_iff in Hr. destruct Hr as [R1 R2].
      apply Rltb_false in R1, R2, R3. destruct (identity_fin a b (a + b)) as [I1 I2]; auto. splits.
      + intros [P1 P2]. destruct (is_neg_integer (a + b)) eqn:En; auto. rewrite I2.
        * rewrite Rabs_R0. now replace (Rltb 0 (10 * / 2 ^ 52)) with true by (symmetry; apply Rltb_true; lra).
        * destruct (Req_dec (a + b) 0); auto. exfalso.
          assert (is_neg_integer (a + b) = true) by (apply is_neg_integer_iff; split; [lra|auto]). congruence.
      + intros P H. rewrite not_neg_integer by (intros [P1 P2]; apply P; split; [lra|auto]). rewrite I1 by auto.
        replace (Rltb (Rabs (G a * G b / G (a + b))) (10 * / 2 ^ 52)) with false by (symmetry; apply Rltb_false; lra).
        destruct (Rltb_spec (G a * G b / G (a + b)) 0); [rewrite Rabs_left by auto|rewrite Rabs_pos_eq by auto]; auto.
      + intros P H _ _ _. rewrite not_neg_integer by (intros [P1 P2]; apply P; split; [lra|auto]). rewrite I1 by auto.
        now replace (Rltb (Rabs (G a * G b / G (a + b))) (10 * / 2 ^ 52)) with true by (symmetry; now apply Rltb_true). }
  destruct (Rle_dec (Rabs b) (Rabs a)) as [L|L]; auto.
  destruct (symmetric_regular a b A B) as [_ ->]. assert (Bal' : balanced b a) by (destruct Bal; split; auto).
  assert (L' : Rabs a <= Rabs b) by lra.
  pose proof (K b a B A Bal' L') as Q. rewrite (Rplus_comm b a), (Rmult_comm (G b)) in Q.
  destruct Q as (Q1 & Q2 & Q3). splits; auto. intros P H. apply Q2; auto. tauto.
Qed.
End B.

Lemma int_part_IZR k : Int_part (IZR k) = k.
Proof. apply int_part_unique. lra. Qed.
Lemma as_i32_IZR k : as_i32 (IZR k) = Z.max (- 2 ^ 31) (Z.min (2 ^ 31 - 1) k).
Proof.
  unfold as_i32, trunc. do 2 f_equal. destruct (Rltb (IZR k) 0).
  - rewrite <- opp_IZR, int_part_IZR. lia.
  - apply int_part_IZR.
Qed.
Lemma Reqb_i32 k : Reqb (IZR k) (IZR (as_i32 (IZR k))) = ((- 2 ^ 31 <=? k) && (k <=? 2 ^ 31 - 1))%Z.
Proof.
  rewrite as_i32_IZR. destruct (Reqb_spec (IZR k) (IZR (Z.max (- 2 ^ 31) (Z.min (2 ^ 31 - 1) k)))) as [E|E]; symmetry.
  - apply eq_IZR in E. rewrite andb_true_iff, !Z.leb_le. lia.
  - apply not_true_iff_false. rewrite andb_true_iff, !Z.leb_le. intros H. apply E. f_equal. lia.
Qed.

Section B2.
Variable G : R -> R.
Variable gam : R -> xr.
Variable lgam : R -> xr * Z.
Notation beta := (Gamma_Model.beta gam lgam).
Notation ln_beta := (Gamma_Model.ln_beta gam lgam).

Lemma pole_IZR n : (n <= 0)%Z -> pole (IZR n).
Proof. intros H. split; [now apply IZR_le in H|now exists n]. Qed.
(** At a non-positive integer -n the value is finite when b is an integer between 1 and n: B(-n,b) = (-1)^b B(1+n-b,b) *)
Theorem C105_beta_negative_integer : computes G gam lgam ->
  forall n b : Z, (1 <= b <= n)%Z -> (n <= 2 ^ 31)%Z -> (b < 2 ^ 31)%Z -> balanced (IZR (1 + n - b)) (IZR b) ->
  ln (Rabs (G (IZR (1 + n - b)) * G (IZR b) / G (IZR (1 + n)))) <= ln_max \/ IZR (1 + n) <= gamma_max ->
  beta (Fin (IZR (- n))) (Fin (IZR b)) = Some (Fin ((if Z.even b then 1 else -1) * (G (IZR (1 + n - b)) * G (IZR b) / G (IZR (1 + n))))).
Proof.
  intros C n b B N B31 Bal H.
  assert (P : pole (IZR (- n))) by (apply pole_IZR; lia).
  assert (E : 1 - IZR (- n) - IZR b = IZR (1 + n - b)) by (rewrite minus_IZR, plus_IZR, opp_IZR; ring).
  assert (Q : 0 < 1 - IZR (- n) - IZR b) by (rewrite E; apply IZR_lt; lia).
  assert (Pb : 0 < IZR b) by (apply IZR_lt; lia).
  pose proof (rec2 gam lgam _ _ P Q) as [R2 _]. revert R2.
  unfold Gamma_Model.beta. change 3%nat with (S 2). generalize 2%nat. intros m R2. cbn [beta_rec].
  rewrite pole_guard by auto. rewrite !Reqb_i32.
  replace ((- 2 ^ 31 <=? - n) && (- n <=? 2 ^ 31 - 1))%Z with true by (symmetry; rewrite andb_true_iff, !Z.leb_le; lia).
  replace ((- 2 ^ 31 <=? b) && (b <=? 2 ^ 31 - 1))%Z with true by (symmetry; rewrite andb_true_iff, !Z.leb_le; lia).
  replace (Rltb 0 (1 - IZR (- n) - IZR b)) with true by (symmetry; now apply Rltb_true). cbn [andb].
  rewrite R2. rewrite not_pole_guard by (now apply pos_not_pole). rewrite E.
  replace (as_i32 (IZR (as_i32 (IZR b)))) with b by (rewrite !as_i32_IZR; lia).
  rewrite Z.rem_mod_nonneg by lia. rewrite Zmod_even.
  assert (S : IZR (1 + n - b) + IZR b = IZR (1 + n)) by (rewrite <- plus_IZR; f_equal; lia).
  destruct (main_value G gam lgam C (IZR (1 + n - b)) (IZR b)) as [_ M].
  { apply pos_not_pole. now rewrite <- E. } { now apply pos_not_pole. } { auto. }
  rewrite S in M. rewrite M.
  - cbn [option_map xmul]. destruct (Z.even b); auto.
  - apply pos_not_pole. apply IZR_lt. lia.
  - destruct H as [H|H]; [left; auto|right].
    assert (0 <= IZR (1 + n - b)) by (apply IZR_le; lia). rewrite !Rabs_pos_eq; lra.
Qed.
(** ... and +Inf when b is not an integer or is larger than n. *)
Theorem C105_beta_pole : forall a b, pole a -> ~ integer b \/ 1 <= a + b ->
  beta (Fin a) (Fin b) = Some (Inf false) /\ ln_beta (Fin a) (Fin b) = Some (Inf false).
Proof.
  intros a b A H. unfold Gamma_Model.beta, Gamma_Model.ln_beta. change 3%nat with (S 2). generalize 2%nat. intros m. cbn [beta_rec ln_beta_rec].
  rewrite pole_guard by auto. destruct (Reqb a (IZR (as_i32 a))); auto.
  replace (Reqb b (IZR (as_i32 b)) && Rltb 0 (1 - a - b)) with false; auto. symmetry.
  destruct H as [H|H].
  - destruct (Reqb_spec b (IZR (as_i32 b))) as [E|E]; auto. exfalso. apply H. now exists (as_i32 b).
  - apply andb_false_iff. right. apply Rltb_false. lra.
Qed.
(** Below -2^31 the answer is always +Inf, although B(-n,b) is finite there for integers 1 <= b <= n. *)
Theorem C105_beta_i32_refuted : forall n b : Z, (2 ^ 31 < n)%Z ->
  beta (Fin (IZR (- n))) (Fin (IZR b)) = Some (Inf false).
Proof.
  intros n b H. unfold Gamma_Model.beta. change 3%nat with (S 2). generalize 2%nat. intros m. cbn [beta_rec].
  rewrite pole_guard by (apply pole_IZR; lia). rewrite Reqb_i32.
  replace ((- 2 ^ 31 <=? - n) && (- n <=? 2 ^ 31 - 1))%Z with false; auto. symmetry. apply andb_false_iff. left. apply Z.leb_gt. lia.
Qed.
(** The documented symmetry B(a,b) = B(b,a) fails for two non-positive integers of different parity: one order gives +Inf, the other -Inf. *)
Theorem C105_beta_symmetry_refuted : forall m n : Z, (0 <= m <= 2 ^ 31)%Z -> (0 <= n <= 2 ^ 31)%Z -> Z.even m = true -> Z.even n = false ->
  beta (Fin (IZR (- n))) (Fin (IZR (- m))) = Some (Inf false) /\ beta (Fin (IZR (- m))) (Fin (IZR (- n))) = Some (Inf true).
Proof.
  assert (K : forall m n : Z, (0 <= m <= 2 ^ 31)%Z -> (0 <= n <= 2 ^ 31)%Z ->
    beta (Fin (IZR (- m))) (Fin (IZR (- n))) = Some (if Z.even n then Inf false else Inf true)).
  { intros m n M N. assert (P : pole (IZR (- m))) by (apply pole_IZR; lia). assert (P' : pole (IZR (- n))) by (apply pole_IZR; lia).
    assert (Q : 0 < 1 - IZR (- m) - IZR (- n)) by (destruct P, P'; lra).
    pose proof (rec2 gam lgam _ _ P Q) as [R2 _]. revert R2.
    unfold Gamma_Model.beta. change 3%nat with (S 2). generalize 2%nat. intros k R2. cbn [beta_rec].
    rewrite pole_guard by auto. rewrite !Reqb_i32.
    replace ((- 2 ^ 31 <=? - m) && (- m <=? 2 ^ 31 - 1))%Z with true by (symmetry; rewrite andb_true_iff, !Z.leb_le; lia).
    replace ((- 2 ^ 31 <=? - n) && (- n <=? 2 ^ 31 - 1))%Z with true by (symmetry; rewrite andb_true_iff, !Z.leb_le; lia).
    replace (Rltb 0 (1 - IZR (- m) - IZR (- n))) with true by (symmetry; now apply Rltb_true). cbn [andb].
    rewrite R2, pole_guard by auto.
    replace (as_i32 (IZR (as_i32 (IZR (- n))))) with (- n)%Z by (rewrite !as_i32_IZR; lia).
    rewrite Z.rem_opp_l by lia. rewrite Z.rem_mod_nonneg, Zmod_even by lia.
    destruct (Z.even n); cbn [option_map xmul Z.opp Z.eqb]; unfold xsgn.
    - destruct (Rltb_spec 1 0); [lra|]. destruct (Rltb_spec 0 1); [|lra]. destruct (Reqb_spec (1 * 1) 0); [lra|].
      destruct (Rltb_spec (1 * 1) 0); [lra|]. auto.
    - destruct (Rltb_spec (-1) 0); [|lra]. destruct (Reqb_spec (-1 * 1) 0); [lra|].
      destruct (Rltb_spec (-1 * 1) 0); [|lra]. auto. }
  intros m n M N Em En. rewrite !K by auto. now rewrite Em, En.
Qed.
(** With one large argument and Gamma(b) < 0, ln_beta returns -ln|B(a,b)| instead of ln|B(a,b)|: with b = -1/2, for every a
    above 10^6, beta returns -exp L and ln_beta returns -L, with L > 0. *)
Theorem C105_ln_beta_sign_refuted : computes G gam lgam -> G (-1 / 2) <= -1 -> forall a, 10 ^ 6 < a ->
  exists L, 0 < L /\ beta (Fin a) (Fin (-1 / 2)) = Some (Fin (- exp L)) /\ ln_beta (Fin a) (Fin (-1 / 2)) = Some (Fin (- L)).
Proof.
  intros C Hg a A.
  assert (Nh : ~ pole (-1 / 2)).
  { intros [_ [k E]]. assert (IZR (-1) < IZR k) by lra. assert (IZR k < IZR 0) by lra. apply lt_IZR in H, H0. lia. }
  assert (Na : ~ pole a) by (apply pos_not_pole; lra).
  rewrite beta_main_used by auto. cbn [Gamma_Model.ln_beta ln_beta_rec]. rewrite !not_pole_guard by auto.
  unfold beta_main, ln_beta_main, asymptotic_factor.
  assert (Ra : Rabs a = a) by (apply Rabs_pos_eq; lra). assert (Rb : Rabs (-1 / 2) = 1 / 2) by (rewrite Rabs_left; lra).
  rewrite Ra, Rb. destruct (Rltb_spec a (1 / 2)); [lra|]. rewrite Ra, Rb.
  destruct (Rltb_spec (10 ^ 6 * (1 / 2)) a); [|lra]. destruct (Rltb_spec (10 ^ 6) a); [|lra]. cbn [andb].
  unfold ln_beta_asymptotic. destruct C as (_ & _ & _ & Hl & _). rewrite (Hl _ Nh).
  cbn [xsub xadd xneg xexp xmul]. unfold sgn. destruct (Rltb_spec (G (-1 / 2)) 0); [|lra].
  set (b := -1 / 2) in *.
  exists (ln (Rabs (G b)) + - (b * ln a) + b * (1 - b) / (2 * a) + b * (1 - b) * (1 - 2 * b) / (12 * a * a) + - b * b * (1 - b) * (1 - b) / (12 * a * a * a)).
  split; [|split; do 2 f_equal; ring].
  assert (L1 : 0 <= ln (Rabs (G b))). { rewrite Rabs_left by lra. destruct (Req_dec (- G b) 1) as [->|]; [rewrite ln_1; lra|]. left. rewrite <- ln_1. apply ln_increasing; lra. }
  assert (L2 : 1 < ln a). { rewrite <- (ln_exp 1). apply ln_increasing; [apply exp_pos|]. pose proof exp_le_3. lra. }
  assert (I : 0 < / a < 1 / 1000000).
  { split; [apply Rinv_0_lt_compat; lra|]. replace (1 / 1000000) with (/ 10 ^ 6) by field. apply Rinv_lt_contravar; [|lra]. apply Rmult_lt_0_compat; lra. }
  assert (E1 : b * (1 - b) / (2 * a) = -3 / 8 * / a) by (unfold b; field; lra).
  assert (E2 : b * (1 - b) * (1 - 2 * b) / (12 * a * a) = -1 / 8 * (/ a * / a)) by (unfold b; field; lra).
  assert (E3 : - b * b * (1 - b) * (1 - b) / (12 * a * a * a) = -3 / 64 * (/ a * / a * / a)) by (unfold b; field; lra).
  rewrite E1, E2, E3.
  assert (0 < / a * / a < 1) by (split; nra). assert (0 < / a * / a * / a < 1) by (split; nra).
  replace (- (b * ln a)) with (1 / 2 * ln a) by (unfold b; field). lra.
Qed.
End B2.

Lemma exp_two n : 2 ^ n <= exp (INR n).
Proof.
  induction n as [|n IH]; [cbn; rewrite exp_0; lra|]. rewrite S_INR, exp_plus. cbn [pow]. pose proof (exp_ineq1 1). pose proof (pow_lt 2 n). nra.
Qed.
Definition Zfact (n : nat) : Z := fold_right Z.mul 1%Z (map Z.of_nat (seq 1 n)).
(** ln_beta returns -Inf for ordinary arguments: B(30,40) = 29! 39! / 69! is about 10^-21, its logarithm about -49. *)
Theorem C105_ln_beta_small_refuted : forall G gam lgam, computes G gam lgam ->
  G 30 = IZR (Zfact 29) -> G 40 = IZR (Zfact 39) -> G 70 = IZR (Zfact 69) ->
  Gamma_Model.beta gam lgam (Fin 30) (Fin 40) = Some (Fin (IZR (Zfact 29) * IZR (Zfact 39) / IZR (Zfact 69))) /\
  -70 < ln (IZR (Zfact 29) * IZR (Zfact 39) / IZR (Zfact 69)) /\
  Gamma_Model.ln_beta gam lgam (Fin 30) (Fin 40) = Some (Inf true).
Proof.
  intros G gam lgam C G30 G40 G70.
  assert (Pos : 0 < IZR (Zfact 29) * IZR (Zfact 39) / IZR (Zfact 69)).
  { apply Rdiv_lt_0_compat; [apply Rmult_lt_0_compat|]; apply IZR_lt; reflexivity. }
  assert (S : 30 + 40 = 70) by ring.
  assert (Bal : balanced 30 40) by (split; intros [_ X]; lra).
  assert (R30 : Rabs 30 <= gamma_max) by (unfold gamma_max; rewrite Rabs_pos_eq; lra).
  assert (R40 : Rabs 40 <= gamma_max) by (unfold gamma_max; rewrite Rabs_pos_eq; lra).
  assert (R70 : Rabs 70 <= gamma_max) by (unfold gamma_max; rewrite Rabs_pos_eq; lra).
  assert (P30 : ~ pole 30) by (apply pos_not_pole; lra). assert (P40 : ~ pole 40) by (apply pos_not_pole; lra).
  assert (P70 : ~ pole 70) by (apply pos_not_pole; lra).
  splits.
  - destruct (C105_beta_identity G gam lgam C 30 40) as [_ H]; auto. rewrite S, G30, G40, G70 in H. apply H; auto.
  - rewrite <- (ln_exp (-70)). apply ln_increasing; [apply exp_pos|].
    apply Rlt_le_trans with (/ IZR (10 ^ 21)).
    + replace (-70) with (- (70)) by ring. rewrite exp_Ropp. apply Rinv_lt_contravar; [apply Rmult_lt_0_compat; [apply IZR_lt; reflexivity|apply exp_pos]|].
      pose proof (exp_two 70) as E. rewrite INR_IZR_INZ in E. change (IZR (Z.of_nat 70)) with 70 in E.
      apply Rlt_le_trans with (2 ^ 70); auto. rewrite pow_IZR. apply IZR_lt. reflexivity.
    + apply Rmult_le_reg_r with (IZR (Zfact 69)); [apply IZR_lt; reflexivity|].
      unfold Rdiv. rewrite Rmult_assoc, Rinv_l, Rmult_1_r by (apply not_0_IZR; discriminate).
      apply Rmult_le_reg_l with (IZR (10 ^ 21)); [apply IZR_lt; reflexivity|].
      rewrite <- Rmult_assoc, Rinv_r, Rmult_1_l by (apply not_0_IZR; discriminate).
      rewrite <- !mult_IZR. apply IZR_le. apply Z.leb_le. vm_compute. reflexivity.
  - destruct (C105_ln_beta_identity G gam lgam C 30 40) as (_ & _ & H); auto. rewrite S, G30, G40, G70 in H. apply H; auto.
    rewrite Rabs_pos_eq by lra. apply Rlt_trans with (/ IZR (10 ^ 20)); [|lra].
    apply Rmult_lt_reg_r with (IZR (Zfact 69)); [apply IZR_lt; reflexivity|].
    unfold Rdiv. rewrite Rmult_assoc, Rinv_l, Rmult_1_r by (apply not_0_IZR; discriminate).
    apply Rmult_lt_reg_l with (IZR (10 ^ 20)); [apply IZR_lt; reflexivity|].
    rewrite <- (Rmult_assoc _ (/ _)), Rinv_r, Rmult_1_l by (apply not_0_IZR; discriminate).
    rewrite <- !mult_IZR. apply IZR_lt. apply Z.ltb_lt. vm_compute. reflexivity.
Qed.

(* ------------------------------------------------------------------ *)
(** * The hypotheses can be met *)
(** every function without zeros away from the poles is computed by some pair of routines *)
Example C105_computes_any : forall G, (forall x, ~ pole x -> G x <> 0) -> exists gam lgam, computes G gam lgam.
Proof.
  intros G H. exists (fun x => if Rleb x 0 && Reqb x (floorR x) then Inf false else Fin (G x)).
  exists (fun x => if Rleb x 0 && Reqb x (floorR x) then (Inf false, 1%Z) else (Fin (ln (Rabs (G x))), sgn (G x))).
  unfold computes. splits; auto.
  - intros x P _. now rewrite not_pole_guard.
  - rewrite pole_guard; auto. split; [lra|]. now exists 0%Z.
  - intros x P. now rewrite not_pole_guard.
  - intros x P. now rewrite pole_guard.
Qed.
(** B(1/2, 2), the example of the documentation: balanced, no poles, in the range *)
Example C105_case_half_two : ~ pole (1 / 2) /\ ~ pole 2 /\ balanced (1 / 2) 2 /\ ~ pole (1 / 2 + 2) /\
  Rabs (1 / 2) <= gamma_max /\ Rabs 2 <= gamma_max /\ Rabs (1 / 2 + 2) <= gamma_max.
Proof.
  unfold balanced, gamma_max. rewrite !Rabs_pos_eq by lra. splits; try (apply pos_not_pole; lra); try lra.
Qed.
(** B(-3, 2) = B(2, 2) *)
Example C105_case_negative : (1 <= 2 <= 3)%Z /\ (3 <= 2 ^ 31)%Z /\ (2 < 2 ^ 31)%Z /\ balanced (IZR (1 + 3 - 2)) (IZR 2) /\ IZR (1 + 3) <= gamma_max.
Proof.
  unfold balanced, gamma_max. splits; try lia; cbn; rewrite ?Rabs_pos_eq by lra; lra.
Qed.
(** a value below -33 for the reflection formula, and one for the recurrence *)
Example C105_case_reflection : 33 < 81 / 2 <= 200 /\ ~ integer (81 / 2) /\ -33 <= 5 / 2 <= 32.
Proof.
  splits; try lra. intros [k E]. assert (IZR (2 * k) = IZR 81) by (rewrite mult_IZR; lra). apply eq_IZR in H. lia.
Qed.
Print Assumptions C105_gamma_special.
Print Assumptions C105_gamma_recurrence.
Print Assumptions C105_gamma_factorial.
Print Assumptions C105_gamma_stirling.
Print Assumptions C105_gamma_reflection.
Print Assumptions C105_beta_identity.
Print Assumptions C105_beta_total.
Print Assumptions C105_beta_symmetric.
Print Assumptions C105_ln_beta_identity.
Print Assumptions C105_beta_negative_integer.
Print Assumptions C105_beta_pole.
Print Assumptions C105_beta_i32_refuted.
Print Assumptions C105_beta_symmetry_refuted.
Print Assumptions C105_ln_beta_sign_refuted.
Print Assumptions C105_ln_beta_small_refuted.
