(** C40: distribution functions. *)
From Coquelicot Require Import Coquelicot.
From Verif Require Import RBase Dist_Model.
Open Scope R_scope.
Open Scope res_scope.

(** * Specification *)

Definition nondecreasing (F : R -> R) : Prop := forall x y, x <= y -> F x <= F y.
Definition in_unit (F : R -> R) : Prop := forall x, 0 <= F x <= 1.

(** the two facts about the error function that the normal distributions rely on *)
Definition is_erf (erf : R -> R) : Prop :=
  (forall x, derivable_pt_lim erf x (2 / sqrt PI * exp (- (x * x)))) /\
  (forall x, -1 <= erf x <= 1).

(** * Tools *)
Lemma deriv_local f g x l e : 0 < e -> (forall y, Rabs (y - x) < e -> g y = f y) ->
  derivable_pt_lim f x l -> derivable_pt_lim g x l.
Proof.
  intros He H D. apply is_derive_Reals. apply is_derive_Reals in D.
  apply (is_derive_ext_loc f); auto.
  exists (mkposreal e He). intros y Hy. symmetry. apply H. exact Hy.
Qed.

Lemma deriv_mono F f : (forall x, derivable_pt_lim F x (f x)) -> (forall x, 0 <= f x) -> nondecreasing F.
Proof.
  intros D P x y H. destruct (Req_dec x y) as [->|Hne]; [lra|].
  assert (pr : derivable F) by (intros z; exists (f z); apply D).
  assert (G : increasing F).
  { apply (nonneg_derivative_1 F pr). intros z.
    rewrite (derive_pt_eq_0 F z (f z) (pr z) (D z)). apply P. }
  apply G. auto.
Qed.

(** * Uniform *)
Section Uniform.
Variables (xmin xmax : R).
Hypothesis Hx : xmin < xmax.
Let u := mkUni xmin xmax.

Theorem C40_uniform_cdf :
  nondecreasing (uniform_cdf u) /\ in_unit (uniform_cdf u) /\
  (forall x, x <= xmin -> uniform_cdf u x = 0) /\ (forall x, xmax <= x -> uniform_cdf u x = 1) /\
  (forall x, 0 <= uniform_pdf u x) /\
  (forall x, x <> xmin -> x <> xmax -> derivable_pt_lim (uniform_cdf u) x (uniform_pdf u x)).
Proof using Hx.
  assert (Hd : 0 < xmax - xmin) by lra.
  assert (Hi : 0 < / (xmax - xmin)) by now apply Rinv_0_lt_compat.
  assert (V : forall x, uniform_cdf u x = if Rltb x xmin then 0 else if Rltb xmax x then 1 else (x - xmin) / (xmax - xmin))
    by reflexivity.
  assert (M : forall x y, x <= y -> (x - xmin) / (xmax - xmin) <= (y - xmin) / (xmax - xmin)).
  { intros. apply Rmult_le_compat_r; lra. }
  assert (E0 : (xmin - xmin) / (xmax - xmin) = 0) by (unfold Rdiv; ring).
  assert (E1 : (xmax - xmin) / (xmax - xmin) = 1) by (field; lra).
  splits.
  - intros x y H. rewrite !V.
    destruct (Rltb_spec x xmin), (Rltb_spec xmax x), (Rltb_spec y xmin), (Rltb_spec xmax y); try lra.
    + rewrite <- E0. apply M. lra.
    + rewrite <- E1. apply M. lra.
    + apply M. lra.
  - intros x. rewrite V. destruct (Rltb_spec x xmin), (Rltb_spec xmax x); try lra.
    split; [rewrite <- E0|rewrite <- E1]; apply M; lra.
  - intros x H. rewrite V. destruct (Rltb_spec x xmin), (Rltb_spec xmax x); try lra.
    replace x with xmin by lra. auto.
  - intros x H. rewrite V. destruct (Rltb_spec x xmin), (Rltb_spec xmax x); try lra.
    replace x with xmax by lra. auto.
  - intros x. unfold uniform_pdf, u; cbn. destruct (Rltb x xmin); [lra|]. destruct (Rltb xmax x); [lra|]. lra.
  - intros x H H'. unfold uniform_pdf. cbn [u un_xmin un_xmax].
    destruct (Rltb_spec x xmin) as [L|L]; [|destruct (Rltb_spec xmax x) as [L'|L']].
    + apply (deriv_local (fun _ => 0) _ _ _ (xmin - x)); [lra| |apply derivable_pt_lim_const].
      intros y Hy. rewrite V. apply Rabs_def2 in Hy. destruct (Rltb_spec y xmin); lra.
    + apply (deriv_local (fun _ => 1) _ _ _ (x - xmax)); [lra| |apply derivable_pt_lim_const].
      intros y Hy. rewrite V. apply Rabs_def2 in Hy.
      destruct (Rltb_spec y xmin), (Rltb_spec xmax y); lra.
    + apply (deriv_local (fun y => (y - xmin) / (xmax - xmin)) _ _ _ (Rmin (x - xmin) (xmax - x))).
      * apply Rmin_pos; lra.
      * intros y Hy. rewrite V. pose proof (Rmin_l (x - xmin) (xmax - x)). pose proof (Rmin_r (x - xmin) (xmax - x)).
        apply Rabs_def2 in Hy. destruct (Rltb_spec y xmin), (Rltb_spec xmax y); lra.
      * apply is_derive_Reals. auto_derive; auto; try (field; lra); ring.
Qed.

(** total mass, mean and variance are the integrals of the density *)
Theorem C40_uniform_moments :
  is_RInt (uniform_pdf u) xmin xmax 1 /\
  is_RInt (fun x => x * uniform_pdf u x) xmin xmax (uniform_mean u) /\
  is_RInt (fun x => (x - uniform_mean u) * (x - uniform_mean u) * uniform_pdf u x) xmin xmax (uniform_variance u).
Proof using Hx.
  assert (P : forall x, Rmin xmin xmax < x < Rmax xmin xmax -> 1 / (xmax - xmin) = uniform_pdf u x).
  { intros x H. rewrite Rmin_left, Rmax_right in H by lra. unfold uniform_pdf. cbn [u un_xmin un_xmax].
    destruct (Rltb_spec x xmin), (Rltb_spec xmax x); lra. }
  assert (K : forall (F f : R -> R), (forall x, is_derive F x (f x)) -> (forall x, continuous f x) ->
    forall v, F xmax - F xmin = v -> is_RInt f xmin xmax v).
  { intros F f D C v <-. apply (is_RInt_derive F f); auto. }
  splits.
  - apply (is_RInt_ext (fun _ => 1 / (xmax - xmin))); [exact P|].
    apply (K (fun x => x * (1 / (xmax - xmin))) (fun _ => 1 / (xmax - xmin))).
    + intros x. auto_derive; auto. ring.
    + intros x. apply continuous_const.
    + field. lra.
  - apply (is_RInt_ext (fun x => x * (1 / (xmax - xmin)))).
    { intros x H. now rewrite <- P. }
    apply (K (fun x => x * x / 2 * (1 / (xmax - xmin)))).
    + intros x. auto_derive; auto. field. lra.
    + intros x. apply (ex_derive_continuous (fun x => x * (1 / (xmax - xmin)))). auto_derive; auto.
    + unfold uniform_mean; cbn; field; lra.
  - set (m := uniform_mean u).
    apply (is_RInt_ext (fun x => (x - m) * (x - m) * (1 / (xmax - xmin)))).
    { intros x H. now rewrite <- P. }
    apply (K (fun x => (x - m) ^ 3 / 3 * (1 / (xmax - xmin)))).
    + intros x. auto_derive; auto. field. lra.
    + intros x. apply (ex_derive_continuous (fun x => (x - m) * (x - m) * (1 / (xmax - xmin)))). auto_derive; auto.
    + unfold uniform_variance, m, uniform_mean; cbn; field; lra.
Qed.
End Uniform.

Theorem C40_uniform_new : forall ok xmin xmax,
  (exists u, uniform_new ok xmin xmax = Ok u) <-> (xmin <= xmax /\ ok = true).
Proof.
  intros ok xmin xmax. unfold uniform_new. destruct (Rltb_spec xmax xmin), ok; cbn [negb]; split;
    try (intros [u E]; discriminate E); try (intros [H1 H2]; try discriminate; lra); eauto.
Qed.

(** * Gumbel *)
Section Gumbel.
Variable EULER : R.
Variables (location scale : R).
Hypothesis Hs : 0 < scale.
Let g := mkGum location scale.

Theorem C40_gumbel_cdf :
  nondecreasing (gumbel_cdf g) /\ (forall x, 0 < gumbel_cdf g x < 1) /\ (forall x, 0 < gumbel_pdf g x) /\
  (forall x, derivable_pt_lim (gumbel_cdf g) x (gumbel_pdf g x)) /\
  (forall p, 0 < p < 1 -> gumbel_cdf g (location - scale * ln (- ln p)) = p).
Proof using Hs.
  assert (P : forall x, 0 < gumbel_pdf g x).
  { intros x. unfold gumbel_pdf; cbn. apply Rmult_lt_0_compat; [|now apply Rinv_0_lt_compat].
    apply Rmult_lt_0_compat; apply exp_pos. }
  assert (D : forall x, derivable_pt_lim (gumbel_cdf g) x (gumbel_pdf g x)).
  { intros x. apply is_derive_Reals. unfold gumbel_cdf, gumbel_pdf; cbn.
    auto_derive; auto. unfold Rdiv, Rminus. field. lra. }
  splits; auto.
  - apply (deriv_mono _ (gumbel_pdf g)); auto. intros x. left. apply P.
  - intros x. unfold gumbel_cdf. cbn. split; [apply exp_pos|].
    rewrite <- exp_0. apply exp_increasing. pose proof (exp_pos ((location - x) / scale)). lra.
  - intros p Hp. unfold gumbel_cdf. cbn.
    assert (ln p < 0) by (rewrite <- ln_1; apply ln_increasing; lra).
    replace ((location - (location - scale * ln (- ln p))) / scale) with (ln (- ln p)) by (field; lra).
    rewrite exp_ln by lra. rewrite Ropp_involutive. apply exp_ln. lra.
Qed.
End Gumbel.

Theorem C40_gumbel_from_mu_sig : forall EULER ok mu sig g,
  gumbel_new_from_mu_sig EULER ok mu sig = Ok g ->
  gumbel_mean EULER g = mu /\ gumbel_variance g = sig * sig.
Proof.
  intros EULER ok mu sig g. unfold gumbel_new_from_mu_sig.
  destruct (negb _); [discriminate|]. intros E. injection E as <-.
  unfold gumbel_mean, gumbel_variance. cbn. split; [ring|].
  assert (sqrt 6 * sqrt 6 = 6) by (apply sqrt_def; lra). pose proof PI_RGT_0.
  unfold SQRT_6. replace (sig * sqrt 6 / PI * (sig * sqrt 6 / PI) * PI * PI / 6)
    with (sig * sig * (sqrt 6 * sqrt 6) / 6) by (field; lra). rewrite H. field.
Qed.

(** * Frechet *)
Section Frechet.
Variables (location scale shape : R).
Hypothesis Hs : 0 < scale.
Hypothesis Ha : 0 < shape.
Let f := mkFre location scale shape.

Lemma min_delta_pos : 0 < FRECHET_MIN_DELTA_X.
Proof. unfold FRECHET_MIN_DELTA_X. apply Rinv_0_lt_compat. apply pow_lt. lra. Qed.

Lemma frechet_above x : location + FRECHET_MIN_DELTA_X <= x ->
  frechet_cdf f x = exp (- Rpower ((x - location) / scale) (- shape)).
Proof using Type.
  intros H. unfold frechet_cdf. cbn [f fr_location fr_scale fr_shape].
  destruct (Rltb_spec (x - location) FRECHET_MIN_DELTA_X); [lra|reflexivity].
Qed.

Lemma frechet_below x : x < location + FRECHET_MIN_DELTA_X -> frechet_cdf f x = 0 /\ frechet_pdf f x = 0.
Proof using Type.
  intros H. unfold frechet_cdf, frechet_pdf. cbn [f fr_location].
  destruct (Rltb_spec (x - location) FRECHET_MIN_DELTA_X); [auto|lra].
Qed.

Theorem C40_frechet_cdf :
  nondecreasing (frechet_cdf f) /\ in_unit (frechet_cdf f) /\ (forall x, 0 <= frechet_pdf f x) /\
  (forall x, x <= location -> frechet_cdf f x = 0) /\
  (forall x, x <> location + FRECHET_MIN_DELTA_X -> derivable_pt_lim (frechet_cdf f) x (frechet_pdf f x)).
Proof using Hs Ha.
  pose proof min_delta_pos as Hmin.
  assert (Zp : forall x, location + FRECHET_MIN_DELTA_X <= x -> 0 < (x - location) / scale).
  { intros x H. apply Rmult_lt_0_compat; [lra|]. now apply Rinv_0_lt_compat. }
  assert (U : in_unit (frechet_cdf f)).
  { intros x. destruct (Rltb_spec x (location + FRECHET_MIN_DELTA_X)) as [H|H].
    - destruct (frechet_below x H) as [-> _]. lra.
    - rewrite frechet_above by auto. split; [left; apply exp_pos|].
      rewrite <- exp_0. left. apply exp_increasing. unfold Rpower.
      pose proof (exp_pos (- shape * ln ((x - location) / scale))). lra. }
  splits; auto.
  - intros x y H. destruct (Rltb_spec x (location + FRECHET_MIN_DELTA_X)) as [L|L].
    + destruct (frechet_below x L) as [-> _]. apply U.
    + rewrite !frechet_above by lra.
      assert (Hz : (x - location) / scale <= (y - location) / scale).
      { apply Rmult_le_compat_r; [|lra]. left. now apply Rinv_0_lt_compat. }
      assert (Hl : ln ((x - location) / scale) <= ln ((y - location) / scale)).
      { destruct Hz as [Hz| ->]; [|lra]. left. apply ln_increasing; auto. }
      assert (Hp : Rpower ((y - location) / scale) (- shape) <= Rpower ((x - location) / scale) (- shape)).
      { unfold Rpower. assert (K : - shape * ln ((y - location) / scale) <= - shape * ln ((x - location) / scale)).
        { rewrite !Ropp_mult_distr_l_reverse. apply Ropp_le_contravar. apply Rmult_le_compat_l; lra. }
        destruct K as [K| ->]; [|lra]. left. now apply exp_increasing. }
      destruct Hp as [Hp| ->]; [|lra]. left. apply exp_increasing. lra.
  - intros x. unfold frechet_pdf. cbn [f fr_location fr_scale fr_shape].
    destruct (Rltb_spec (x - location) FRECHET_MIN_DELTA_X); [lra|].
    apply Rmult_le_pos; [|left; now apply Rinv_0_lt_compat].
    apply Rmult_le_pos; [|lra]. left. apply Rmult_lt_0_compat; unfold Rpower; apply exp_pos.
  - intros x H. apply frechet_below. lra.
  - intros x Hx. destruct (Rltb_spec x (location + FRECHET_MIN_DELTA_X)) as [L|L].
    + destruct (frechet_below x L) as [_ ->].
      apply (deriv_local (fun _ => 0) _ _ _ (location + FRECHET_MIN_DELTA_X - x)); [lra| |apply derivable_pt_lim_const].
      intros y Hy. apply Rabs_def2 in Hy. apply frechet_below. lra.
    + unfold frechet_pdf. cbn [f fr_location fr_scale fr_shape].
      destruct (Rltb_spec (x - location) FRECHET_MIN_DELTA_X) as [K|_]; [lra|].
      apply (deriv_local (fun y => exp (- Rpower ((y - location) / scale) (- shape))) _ _ _
               (x - (location + FRECHET_MIN_DELTA_X))); [lra| |].
      * intros y Hy. apply Rabs_def2 in Hy. apply frechet_above. lra.
      * specialize (Zp x L). set (z := (x - location) / scale) in *.
        apply is_derive_Reals. unfold Rpower.
        replace (-1 - shape) with (- shape - 1) by ring.
        replace (exp ((- shape - 1) * ln z)) with (exp (- shape * ln z) / z).
        2: { rewrite Rmult_minus_distr_r, Rmult_1_l. unfold Rminus. rewrite exp_plus, exp_Ropp, exp_ln by auto. reflexivity. }
        auto_derive; [fold z; auto|]. change ((x + - location) * / scale) with z. field. lra.
Qed.
End Frechet.

Theorem C40_frechet_moments : forall gamma f,
  (frechet_mean gamma f = None <-> fr_shape f <= 1) /\ (frechet_variance gamma f = None <-> fr_shape f <= 2) /\
  (1 < fr_shape f -> frechet_mean gamma f = Some (fr_location f + fr_scale f * gamma (1 - 1 / fr_shape f))) /\
  (2 < fr_shape f -> frechet_variance gamma f = Some (fr_scale f * fr_scale f *
      (gamma (1 - 2 / fr_shape f) - gamma (1 - 1 / fr_shape f) ^ 2))).
Proof.
  intros gamma f. unfold frechet_mean, frechet_variance.
  destruct (Rltb_spec 1 (fr_shape f)), (Rltb_spec 2 (fr_shape f)); splits;
    try (split; [try discriminate; auto|intros; try lra; auto]); intros; try lra; auto.
  f_equal. cbn. ring.
Qed.

(** finding: the absolute cut-off 1e-15 returns 0 where the distribution function is almost 1 *)
Theorem C40_frechet_cutoff_refuted :
  exists location scale shape x, 0 < scale /\ 0 < shape /\ location < x /\
    frechet_cdf (mkFre location scale shape) x = 0 /\
    9/10 < exp (- Rpower ((x - location) / scale) (- shape)).
Proof.
  exists 0, (/ 10 ^ 20), 1, (/ 10 ^ 16).
  assert (P20 : 0 < / 10 ^ 20) by (apply Rinv_0_lt_compat, pow_lt; lra).
  assert (P16 : 0 < / 10 ^ 16) by (apply Rinv_0_lt_compat, pow_lt; lra).
  assert (L : / 10 ^ 16 < / 10 ^ 15) by (apply Rinv_lt_contravar; lra).
  splits; try lra.
  - unfold frechet_cdf, FRECHET_MIN_DELTA_X; cbn [fr_location].
    destruct (Rltb_spec (/ 10 ^ 16 - 0) (/ 10 ^ 15)); [reflexivity|lra].
  - replace ((/ 10 ^ 16 - 0) / / 10 ^ 20) with 10000 by (field; split; apply pow_nonzero; lra).
    rewrite Rpower_Ropp, Rpower_1 by lra.
    pose proof (exp_ineq1_le (- / 10000)). lra.
Qed.

(** * Normal *)
Lemma sqrt2_pos : 0 < sqrt 2. Proof. apply sqrt_lt_R0. lra. Qed.
Lemma sqrtpi_pos : 0 < sqrt PI. Proof. apply sqrt_lt_R0. apply PI_RGT_0. Qed.

Section Normal.
Variable erf : R -> R.
Hypothesis Herf : is_erf erf.
Variables (mu sig : R).
Hypothesis Hs : 0 < sig.

Lemma phi_deriv x : derivable_pt_lim (fun x => (1 + erf ((x - mu) / (sig * SQRT_2))) / 2) x
  (1 / (sig * SQRT_2 * SQRT_PI) * exp (-1 / (2 * sig * sig) * ((x - mu) * (x - mu)))).
Proof using Herf Hs.
  pose proof sqrt2_pos. pose proof sqrtpi_pos. unfold SQRT_2, SQRT_PI.
  set (z := (x - mu) / (sig * sqrt 2)).
  assert (Z2 : - (z * z) = -1 / (2 * sig * sig) * ((x - mu) * (x - mu))).
  { unfold z. replace ((x - mu) / (sig * sqrt 2) * ((x - mu) / (sig * sqrt 2)))
      with ((x - mu) * (x - mu) / (sig * sig * (sqrt 2 * sqrt 2))) by (field; lra).
    rewrite sqrt_def by lra. field. lra. }
  rewrite <- Z2.
  assert (D : is_derive erf z (2 / sqrt PI * exp (- (z * z)))) by (apply is_derive_Reals, Herf).
  apply is_derive_Reals.
  assert (G : is_derive (fun x => erf ((x - mu) / (sig * sqrt 2))) x (scal (/ (sig * sqrt 2)) (2 / sqrt PI * exp (- (z * z))))).
  { apply (is_derive_comp erf (fun x => (x - mu) / (sig * sqrt 2))); [exact D|].
    auto_derive; auto. field. lra. }
  apply is_derive_Reals. apply is_derive_Reals in G.
  replace (1 / (sig * sqrt 2 * sqrt PI) * exp (- (z * z))) with
    (1/2 * (0 + / (sig * sqrt 2) * (2 / sqrt PI * exp (- (z * z))))) by (field; lra).
  apply (deriv_local (mult_real_fct (1/2) (plus_fct (fct_cte 1) (fun x => erf ((x - mu) / (sig * sqrt 2))))) _ _ _ 1).
  - lra.
  - intros y _. unfold mult_real_fct, plus_fct, fct_cte. field.
  - apply derivable_pt_lim_scal, derivable_pt_lim_plus; [apply derivable_pt_lim_const|exact G].
Qed.

Theorem C40_normal_cdf : forall ok n, normal_new ok mu sig = Ok n ->
  nondecreasing (normal_cdf erf n) /\ in_unit (normal_cdf erf n) /\ (forall x, 0 < normal_pdf n x) /\
  (forall x, derivable_pt_lim (normal_cdf erf n) x (normal_pdf n x)) /\
  normal_mean n = mu /\ normal_variance n = sig * sig.
Proof using Herf Hs.
  intros ok n E. unfold normal_new in E. destruct (negb _); [discriminate|]. injection E as <-.
  assert (D : forall x, derivable_pt_lim (normal_cdf erf (mkNor mu sig (1 / (sig * SQRT_2 * SQRT_PI)) (-1 / (2 * sig * sig)))) x
     (normal_pdf (mkNor mu sig (1 / (sig * SQRT_2 * SQRT_PI)) (-1 / (2 * sig * sig))) x)).
  { intros x. unfold normal_cdf, normal_pdf. cbn. apply phi_deriv. }
  assert (P : forall x, 0 < normal_pdf (mkNor mu sig (1 / (sig * SQRT_2 * SQRT_PI)) (-1 / (2 * sig * sig))) x).
  { intros x. unfold normal_pdf. cbn. pose proof sqrt2_pos. pose proof sqrtpi_pos.
    apply Rmult_lt_0_compat; [|apply exp_pos]. unfold Rdiv. rewrite Rmult_1_l.
    apply Rinv_0_lt_compat. unfold SQRT_2, SQRT_PI. apply Rmult_lt_0_compat; auto. now apply Rmult_lt_0_compat. }
  splits; auto.
  - apply (deriv_mono _ _ D). intros x. left. apply P.
  - intros x. unfold normal_cdf. cbn. pose proof (proj2 Herf ((x - mu) / (sig * SQRT_2))). lra.
Qed.

(** [mu], [sig]: mean and deviation of log x *)
Theorem C40_lognormal_cdf : forall ok l, lognormal_new ok mu sig = Ok l ->
  nondecreasing (lognormal_cdf erf l) /\ in_unit (lognormal_cdf erf l) /\ (forall x, 0 <= lognormal_pdf l x) /\
  (forall x, x <= 0 -> lognormal_cdf erf l x = 0) /\
  (forall x, x <> LOGNORMAL_MIN_X -> derivable_pt_lim (lognormal_cdf erf l) x (lognormal_pdf l x)).
Proof using Herf Hs.
  intros ok l E. unfold lognormal_new in E. destruct (negb _); [discriminate|]. injection E as <-.
  set (l := mkLog _ _ _ _).
  assert (Hm : 0 < LOGNORMAL_MIN_X) by (unfold LOGNORMAL_MIN_X; apply Rinv_0_lt_compat, pow_lt; lra).
  assert (B : forall x, x < LOGNORMAL_MIN_X -> lognormal_cdf erf l x = 0 /\ lognormal_pdf l x = 0).
  { intros x H. unfold lognormal_cdf, lognormal_pdf. destruct (Rltb_spec x LOGNORMAL_MIN_X); [auto|lra]. }
  assert (A : forall x, LOGNORMAL_MIN_X <= x ->
     lognormal_cdf erf l x = (1 + erf ((ln x - mu) / (sig * SQRT_2))) / 2).
  { intros x H. unfold lognormal_cdf. destruct (Rltb_spec x LOGNORMAL_MIN_X); [lra|reflexivity]. }
  assert (Mono : nondecreasing (fun y => (1 + erf ((y - mu) / (sig * SQRT_2))) / 2)).
  { apply (deriv_mono _ _ phi_deriv). intros x. pose proof sqrt2_pos. pose proof sqrtpi_pos.
    apply Rmult_le_pos; [|left; apply exp_pos]. unfold Rdiv. rewrite Rmult_1_l. left.
    apply Rinv_0_lt_compat. unfold SQRT_2, SQRT_PI. apply Rmult_lt_0_compat; auto. now apply Rmult_lt_0_compat. }
  assert (U : in_unit (lognormal_cdf erf l)).
  { intros x. destruct (Rltb_spec x LOGNORMAL_MIN_X) as [H|H].
    - destruct (B x H) as [-> _]. lra.
    - rewrite A by auto. pose proof (proj2 Herf ((ln x - mu) / (sig * SQRT_2))). lra. }
  splits; auto.
  - intros x y H. destruct (Rltb_spec x LOGNORMAL_MIN_X) as [L|L].
    + destruct (B x L) as [-> _]. apply U.
    + rewrite !A by lra. apply Mono. destruct H as [H| ->]; [|lra]. left. apply ln_increasing; lra.
  - intros x. destruct (Rltb_spec x LOGNORMAL_MIN_X) as [H|H].
    + destruct (B x H) as [_ ->]. lra.
    + unfold lognormal_pdf. destruct (Rltb_spec x LOGNORMAL_MIN_X); [lra|]. cbn [l lo_a lo_b lo_mu].
      pose proof sqrt2_pos. pose proof sqrtpi_pos.
      apply Rmult_le_pos; [|left; apply Rinv_0_lt_compat; lra].
      apply Rmult_le_pos; [|left; apply exp_pos]. unfold Rdiv. rewrite Rmult_1_l. left.
      apply Rinv_0_lt_compat. unfold SQRT_2, SQRT_PI. apply Rmult_lt_0_compat; auto. now apply Rmult_lt_0_compat.
  - intros x H. apply B. lra.
  - intros x Hx. destruct (Rltb_spec x LOGNORMAL_MIN_X) as [L|L].
    + destruct (B x L) as [_ ->].
      apply (deriv_local (fun _ => 0) _ _ _ (LOGNORMAL_MIN_X - x)); [lra| |apply derivable_pt_lim_const].
      intros y Hy. apply Rabs_def2 in Hy. apply B. lra.
    + unfold lognormal_pdf. destruct (Rltb_spec x LOGNORMAL_MIN_X) as [K|_]; [lra|]. cbn [l lo_a lo_b lo_mu].
      apply (deriv_local (fun y => (1 + erf ((ln y - mu) / (sig * SQRT_2))) / 2) _ _ _ (x - LOGNORMAL_MIN_X)); [lra| |].
      * intros y Hy. apply Rabs_def2 in Hy. apply A. lra.
      * apply (derivable_pt_lim_comp ln (fun y => (1 + erf ((y - mu) / (sig * SQRT_2))) / 2)).
        -- apply derivable_pt_lim_ln. lra.
        -- apply phi_deriv.
Qed.
End Normal.

(** the conversion from the mean and deviation of x *)
Theorem C40_lognormal_from_mu_sig : forall ok mu sig l, 0 < mu ->
  lognormal_new_from_mu_sig ok mu sig = Ok l ->
  lognormal_mean l = mu /\ lognormal_variance l = sig * sig.
Proof.
  intros ok mu sig l Hmu. unfold lognormal_new_from_mu_sig.
  destruct (negb _); [discriminate|]. intros E. injection E as <-.
  set (d := sig / mu). set (v := ln (1 + d * d)).
  assert (P : 0 <= d * d) by apply Rle_0_sqr.
  assert (V : 0 <= v).
  { unfold v. destruct P as [P|P].
    - left. rewrite <- ln_1. apply ln_increasing; lra.
    - rewrite <- P, Rplus_0_r, ln_1. lra. }
  unfold lognormal_mean, lognormal_variance. cbn.
  rewrite sqrt_def by auto.
  replace (ln mu - v / 2 + v / 2) with (ln mu) by field.
  replace (2 * (ln mu - v / 2) + v) with (ln mu + ln mu) by field.
  rewrite exp_plus, !exp_ln by auto. split; auto.
  unfold v. rewrite exp_ln by lra. unfold d. field. lra.
Qed.

(** * An error function exists: the Gaussian integral is bounded by sqrt(pi)/2 *)
Definition gauss_int (x : R) : R := RInt (fun t => exp (- (t * t))) 0 x.
Definition erf_ex (x : R) : R := 2 / sqrt PI * gauss_int x.

Lemma gauss_cont t : continuous (fun t => exp (- (t * t))) t.
Proof. apply (ex_derive_continuous (fun t => exp (- (t * t)))). auto_derive; auto. Qed.

Lemma gauss_deriv x : is_derive gauss_int x (exp (- (x * x))).
Proof.
  unfold gauss_int. apply (is_derive_RInt (fun t => exp (- (t * t))) _ 0 x).
  - exists (mkposreal 1 Rlt_0_1). intros y _. apply (RInt_correct (V:=R_CompleteNormedModule)).
    apply (ex_RInt_continuous (V:=R_CompleteNormedModule)). intros; apply gauss_cont.
  - apply gauss_cont.
Qed.

Definition gauss_k (x t : R) : R := exp (- (x * x) * (1 + t * t)) / (1 + t * t).
Definition gauss_h (x : R) : R := RInt (fun t => gauss_k x t) 0 1.

Lemma one_sq t : 0 < 1 + t * t.
Proof. pose proof (Rle_0_sqr t). unfold Rsqr in *. lra. Qed.

Lemma gauss_k_deriv x t : is_derive (fun u => gauss_k u t) x (-2 * x * exp (- (x * x) * (1 + t * t))).
Proof.
  unfold gauss_k. pose proof (one_sq t). auto_derive; [lra|]. field. lra.
Qed.

Lemma gauss_k_int x : ex_RInt (fun t => gauss_k x t) 0 1.
Proof.
  apply (ex_RInt_continuous (V:=R_CompleteNormedModule)). intros t _.
  apply (ex_derive_continuous (fun t => gauss_k x t)). unfold gauss_k. pose proof (one_sq t).
  auto_derive. lra.
Qed.

Lemma gauss_h_deriv (x : R) : is_derive gauss_h x (-2 * exp (- (x * x)) * gauss_int x).
Proof.
  assert (D : is_derive gauss_h x (RInt (fun t => Derive (fun u => gauss_k u t) x) 0 1)).
  { apply (is_derive_RInt_param gauss_k 0 1 x).
    - exists (mkposreal 1 Rlt_0_1). intros y _ t _. eexists. apply gauss_k_deriv.
    - intros t _.
      apply (continuity_2d_pt_ext (fun u v => -2 * u * exp (- (u * u) * (1 + v * v)))).
      { intros u v. symmetry. apply is_derive_unique. apply gauss_k_deriv. }
      apply continuity_2d_pt_mult.
      + apply continuity_2d_pt_mult; [apply continuity_2d_pt_const|apply continuity_2d_pt_id1].
      + apply continuity_1d_2d_pt_comp.
        * apply derivable_continuous_pt. apply derivable_pt_exp.
        * apply continuity_2d_pt_mult.
          -- apply continuity_2d_pt_opp, continuity_2d_pt_mult; apply continuity_2d_pt_id1.
          -- apply continuity_2d_pt_plus; [apply continuity_2d_pt_const|].
             apply continuity_2d_pt_mult; apply continuity_2d_pt_id2.
    - exists (mkposreal 1 Rlt_0_1). intros y _. apply gauss_k_int. }
  assert (E : RInt (fun t => Derive (fun u => gauss_k u t) x) 0 1 = -2 * exp (- (x * x)) * gauss_int x); [|now rewrite <- E].
  rewrite (RInt_ext _ (fun t => scal (-2 * exp (- (x * x))) (scal x (exp (- ((x * t + 0) * (x * t + 0))))))).
  2: { intros t _. transitivity (-2 * x * exp (- (x * x) * (1 + t * t))); [apply is_derive_unique, gauss_k_deriv|].
       unfold scal; cbn; unfold mult; cbn.
       replace (- (x * x) * (1 + t * t)) with (- (x * x) + - ((x * t + 0) * (x * t + 0))) by ring.
       rewrite exp_plus. ring. }
  rewrite (RInt_scal (V:=R_CompleteNormedModule)).
  2: { apply (ex_RInt_continuous (V:=R_CompleteNormedModule)). intros t _.
       apply (ex_derive_continuous (fun t => x * exp (- ((x * t + 0) * (x * t + 0))))). auto_derive; auto. }
  assert (L := RInt_comp_lin (V:=R_CompleteNormedModule) (fun t => exp (- (t * t))) x 0 0 1).
  rewrite Rmult_0_r, Rmult_1_r, !Rplus_0_r in L.
  etransitivity; [apply f_equal, L|].
  { apply (ex_RInt_continuous (V:=R_CompleteNormedModule)). intros; apply gauss_cont. }
  unfold scal; cbn; unfold mult; cbn. reflexivity.
Qed.

Lemma gauss_id x : gauss_int x * gauss_int x + gauss_h x = PI / 4.
Proof.
  assert (D : forall y, is_derive (fun y => gauss_int y * gauss_int y + gauss_h y) y 0).
  { intros y. evar_last.
    - apply (is_derive_plus (fun y => gauss_int y * gauss_int y) gauss_h).
      + apply (is_derive_mult gauss_int gauss_int); [apply gauss_deriv|apply gauss_deriv|intros; apply Rmult_comm].
      + apply gauss_h_deriv.
    - unfold plus, mult; cbn. ring. }
  assert (C : gauss_int x * gauss_int x + gauss_h x = gauss_int 0 * gauss_int 0 + gauss_h 0).
  { destruct (Req_dec x 0) as [->|Hx]; [reflexivity|].
    assert (K : forall a b, a < b -> gauss_int a * gauss_int a + gauss_h a = gauss_int b * gauss_int b + gauss_h b).
    { intros a b Hab. destruct (MVT_gen (fun y => gauss_int y * gauss_int y + gauss_h y) a b (fun _ => 0)) as (c & _ & Hc).
      - intros y _. apply D.
      - intros y _. apply derivable_continuous_pt. exists 0. apply is_derive_Reals. apply D.
      - cbv beta in Hc. lra. }
    destruct (Rtotal_order x 0) as [H|[H|H]]; [apply K; auto|contradiction|symmetry; apply K; auto]. }
  rewrite C.
  assert (Z : gauss_int 0 = 0) by (unfold gauss_int; rewrite RInt_point; reflexivity).
  rewrite Z.
  assert (H : gauss_h 0 = PI / 4).
  { unfold gauss_h. rewrite (RInt_ext _ (fun t => / (1 + t ^ 2))).
    - apply is_RInt_unique. replace (PI / 4) with (minus (atan 1) (atan 0)).
      + apply (is_RInt_derive atan (fun t => / (1 + t ^ 2))).
        * intros t _. apply is_derive_Reals. apply derivable_pt_lim_atan.
        * intros t _. apply (ex_derive_continuous (fun t => / (1 + t ^ 2))). pose proof (one_sq t).
          auto_derive. cbn. lra.
      + unfold minus, plus, opp; cbn. rewrite atan_1, atan_0. lra.
    - intros t _. unfold gauss_k. replace (- (0 * 0) * (1 + t * t)) with 0 by ring. rewrite exp_0.
      unfold Rdiv. rewrite Rmult_1_l. f_equal. ring. }
  rewrite H. ring.
Qed.

Lemma gauss_bound x : gauss_int x * gauss_int x <= PI / 4.
Proof.
  rewrite <- (gauss_id x).
  assert (0 <= gauss_h x).
  { unfold gauss_h. apply RInt_ge_0; [lra|apply gauss_k_int|].
    intros t _. unfold gauss_k. pose proof (one_sq t).
    apply Rmult_le_pos; [left; apply exp_pos|left; now apply Rinv_0_lt_compat]. }
  lra.
Qed.

Lemma erf_ex_spec : is_erf erf_ex.
Proof.
  split.
  - intros x. apply is_derive_Reals. unfold erf_ex. apply is_derive_scal. apply gauss_deriv.
  - intros x. pose proof (gauss_bound x) as B. pose proof sqrtpi_pos. pose proof PI_RGT_0.
    assert (S : erf_ex x * erf_ex x <= 1).
    { unfold erf_ex. replace (2 / sqrt PI * gauss_int x * (2 / sqrt PI * gauss_int x)) with
        (4 / (sqrt PI * sqrt PI) * (gauss_int x * gauss_int x)) by (field; lra).
      rewrite sqrt_def by lra. replace 1 with (4 / PI * (PI / 4)) by (field; lra).
      apply Rmult_le_compat_l; [|exact B]. apply Rmult_le_pos; [lra|]. left. now apply Rinv_0_lt_compat. }
    split; nra.
Qed.

(** ** The hypotheses are met *)
Example C40_example :
  is_erf erf_ex /\
  (exists u, uniform_new true 1 3 = Ok u /\ uniform_cdf u 2 = 1/2 /\ uniform_pdf u 2 = 1/2) /\
  (exists g, gumbel_new_from_mu_sig (1/2) (fun _ s => Rltb 0 s) 1 2 = Ok g).
Proof.
  splits.
  - exact erf_ex_spec.
  - exists (mkUni 1 3). unfold uniform_new, uniform_cdf, uniform_pdf. cbn.
    rewrite !(proj2 (Rltb_false _ _)) by lra. splits; auto; lra.
  - eexists. unfold gumbel_new_from_mu_sig. cbv zeta.
    rewrite (proj2 (Rltb_true _ _)); [reflexivity|].
    pose proof PI_RGT_0. unfold SQRT_6. assert (0 < sqrt 6) by (apply sqrt_lt_R0; lra).
    apply Rmult_lt_0_compat; [|now apply Rinv_0_lt_compat]. lra.
Qed.

Print Assumptions C40_uniform_cdf.
Print Assumptions C40_uniform_moments.
Print Assumptions C40_gumbel_cdf.
Print Assumptions C40_gumbel_from_mu_sig.
Print Assumptions C40_frechet_cdf.
Print Assumptions C40_frechet_cutoff_refuted.
Print Assumptions C40_normal_cdf.
Print Assumptions C40_lognormal_cdf.
Print Assumptions C40_lognormal_from_mu_sig.
