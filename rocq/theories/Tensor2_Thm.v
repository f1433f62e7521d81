(** Theorems about second-order tensors: C62, operations on the Kelvin-Mandel
    vector agree with matrix algebra. *)
From Coq Require Import Reals Lra List.
From Verif Require Import Base RBase Sort_Model Tensor_Model Tensor4_Model Tensor_Spec Tensor_Lib Tensor_Thm.
Import ListNotations.
Open Scope R_scope.

(** ** C62 *)

Theorem C62_determinant t : t2_determinant t = mdet (tens2 t).
Proof. sums. tens. destruct t as [[| |] v]; unfold t2_determinant; tred; kfield. Qed.
Theorem C62_trace t : t2_trace t = mtrace (tens2 t).
Proof. sums. tens. destruct t as [[| |] v]; tred; reflexivity. Qed.
Theorem C62_transpose t o : t2_rep o = t2_rep t ->
  exists t', t2_transpose t o = Ok t' /\ t2_rep t' = t2_rep t /\ eq2 (tens2 t') (mtrans (tens2 t)).
Proof.
  intros H. unfold t2_transpose. destruct t as [r u], o as [r' v]; cbn [t2_rep] in *; subst r'.
  destruct r; (eexists; split; [reflexivity|]); (split; [reflexivity|]); done2.
Qed.
Theorem C62_squared t o : t2_rep o = t2_rep t ->
  exists t', t2_squared t o = Ok t' /\ t2_rep t' = t2_rep t /\ eq2 (tens2 t') (mmul (tens2 t) (tens2 t)).
Proof.
  intros H. unfold t2_squared. destruct t as [r u], o as [r' v]; cbn [t2_rep] in *; subst r'.
  destruct r; (eexists; split; [reflexivity|]); (split; [reflexivity|]); done2.
Qed.

(** the sum [alpha A + beta B] *)
Theorem C62_add c alpha a beta b : t2_rep b = t2_rep a -> t2_rep c = t2_rep a ->
  exists c', t2_add c alpha a beta b = Ok c' /\ t2_rep c' = t2_rep a /\
    eq2 (tens2 c') (madd (mscale alpha (tens2 a)) (mscale beta (tens2 b))).
Proof.
  intros H1 H2. unfold t2_add. destruct a as [r u], b as [r1 v], c as [r2 w]; cbn [t2_rep] in *; subst.
  destruct r; (eexists; split; [reflexivity|]); (split; [reflexivity|]); done2.
Qed.

(** the inverse: a two-sided inverse whenever the determinant passes the test,
    otherwise the output is left as it was *)
Theorem C62_inverse t o tol : t2_rep o = t2_rep t -> 0 <= tol ->
  (tol < Rabs (mdet (tens2 t)) /\
   exists t', t2_inverse t o tol = Ok (t', Some (mdet (tens2 t))) /\ t2_rep t' = t2_rep t /\
     eq2 (mmul (tens2 t) (tens2 t')) mident /\ eq2 (mmul (tens2 t') (tens2 t)) mident) \/
  (Rabs (mdet (tens2 t)) <= tol /\ t2_inverse t o tol = Ok (o, None)).
Proof.
  intros H Htol. rewrite <- C62_determinant.
  destruct (Rltb tol (Rabs (t2_determinant t))) eqn:E.
  2: { right. split; [apply Rltb_false in E; lra|].
       destruct t as [r u], o as [r' v]; cbn [t2_rep] in H; subst r'.
       destruct r; unfold t2_inverse; unfold t2_determinant in E; cbn [t2_dim t2_rep rep_dim t2_vec] in *;
         rewrite E; reflexivity. }
  left. split; [apply Rltb_true in E; exact E|].
  assert (ND : t2_determinant t <> 0).
  { intros K. rewrite K, Rabs_R0 in E. apply Rltb_true in E. lra. }
  remember (t2_determinant t) as D eqn:DE.
  destruct t as [r u], o as [r' v]; cbn [t2_rep] in H; subst r'.
  destruct r; unfold t2_determinant in DE; cbn [t2_dim t2_rep rep_dim t2_vec] in DE;
    unfold t2_inverse; cbn [t2_dim t2_rep rep_dim t2_vec rep_eqb assert_ bind];
    rewrite <- DE, E; (eexists; split; [reflexivity|]); (split; [reflexivity|]); clear E Htol;
    (split; intros i j Hi Hj; unfold mmul, mident, sum3, kron; tens; idx i; idx j; tred;
      rewrite ?div_sq2 in *; pose proof sq2_pos; pose proof sq2 as Hsq2;
      (field_simplify_eq [Hsq2]; [rewrite ?DE; field [Hsq2] | try (split; lra); lra || auto])).
Qed.
Theorem C62_inverse_reps t o tol : t2_rep o <> t2_rep t -> t2_inverse t o tol = Panic.
Proof. unfold t2_inverse. destruct (t2_rep t), (t2_rep o); cbn; congruence. Qed.
(** the absolute test calls a well-conditioned small tensor singular *)
Theorem C62_inverse_scale_refuted :
  exists t tol, mdet (tens2 t) <> 0 /\ 0 <= tol /\ eq2 (tens2 t) (mscale (/ 1000000) mident) /\
    t2_inverse t (t2_new Symmetric) tol = Ok (t2_new Symmetric, None) /\ tol = / 10 ^ 15.
Proof.
  exists (mkT2 Symmetric (fun m => if (m <? 3)%nat then / 1000000 else 0)), (/ 10 ^ 15).
  assert (D : mdet (tens2 (mkT2 Symmetric (fun m => if (m <? 3)%nat then / 1000000 else 0))) = / 10 ^ 18).
  { rewrite <- C62_determinant. unfold t2_determinant. tred. kfield. }
  split; [rewrite D; lra|]. split; [lra|]. split.
  { intros i j Hi Hj. unfold mscale, mident, kron. tens. idx i; idx j; tred; kfield. }
  split; [|reflexivity].
  destruct (C62_inverse (mkT2 Symmetric (fun m => if (m <? 3)%nat then / 1000000 else 0)) (t2_new Symmetric) (/ 10 ^ 15) eq_refl) as [[K _]|[_ K]].
  - lra.
  - rewrite D, Rabs_pos_eq in K; lra.
  - exact K.
Qed.

Theorem C62_deviator t o : t2_rep o = t2_rep t ->
  exists t', t2_deviator t o = Ok t' /\ t2_rep t' = t2_rep t /\
    eq2 (tens2 t') (mdev (tens2 t)) /\ mtrace (tens2 t') = 0.
Proof.
  intros H. unfold t2_deviator. destruct t as [r u], o as [r' v]; cbn [t2_rep] in *; subst r'.
  destruct r; cbn [rep_eqb assert_ bind t2_dim t2_rep rep_dim Nat.ltb Nat.leb t2_vec];
  match goal with |- context [Rltb ?e (Rabs ?x)] =>
    replace (Rltb e (Rabs x)) with false by
      (symmetry; apply Rltb_false; replace x with 0 by (unfold wr; cbn -[IZR Rdiv]; field); rewrite Rabs_R0; lra) end;
  (eexists; split; [reflexivity|]); (split; [reflexivity|]); (split; [done2|]);
  sums; tens; tred; kfield.
Qed.
Theorem C62_deviator_norm t : t2_deviator_norm t = mfrob (mdev (tens2 t)).
Proof.
  unfold t2_deviator_norm, mfrob. sums. cbn [Nat.eqb]. tens. destruct t as [[| |] v]; tred; f_equal; kfield.
Qed.
Theorem C62_deviator_determinant t : t2_deviator_determinant t = mdet (mdev (tens2 t)).
Proof.
  sums. cbn [Nat.eqb]. tens. destruct t as [[| |] v]; unfold t2_deviator_determinant; tred; kfield.
Qed.

(** the symmetric and skew parts; for a General tensor the [sym] argument must
    not come in with a skew part, see the refutation *)
Theorem C62_decompose t sym skw : t2_rep sym = t2_rep t -> t2_rep skw = t2_rep t ->
  (t2_rep t = General -> eq2 (mtrans (tens2 sym)) (tens2 sym)) ->
  exists s k, t2_decompose t sym skw = Ok (s, k) /\ t2_rep s = t2_rep t /\ t2_rep k = t2_rep t /\
    eq2 (tens2 s) (mscale (/ 2) (madd (tens2 t) (mtrans (tens2 t)))) /\
    eq2 (tens2 k) (mscale (/ 2) (msub (tens2 t) (mtrans (tens2 t)))).
Proof.
  intros H1 H2 H3. destruct t as [r u], sym as [r1 v], skw as [r2 w]; cbn [t2_rep] in *; subst.
  destruct r; (eexists; eexists; split; [reflexivity|]); (split; [reflexivity|]); (split; [reflexivity|]).
  2,3: split; done2.
  specialize (H3 eq_refl).
  assert (K : v 6%nat = 0 /\ v 7%nat = 0 /\ v 8%nat = 0).
  { pose proof (H3 0%nat 1%nat ltac:(lia) ltac:(lia)) as A. pose proof (H3 1%nat 2%nat ltac:(lia) ltac:(lia)) as B.
    pose proof (H3 0%nat 2%nat ltac:(lia) ltac:(lia)) as C. unfold mtrans in *.
    rewrite !tens2_c2 in A, B, C by lia. tred_in A. tred_in B. tred_in C.
    pose proof sq2_pos as P. 
    assert (Q : forall x y, (x - y) / SQRT_2 = (x + y) / SQRT_2 -> y = 0).
    { intros x y Q. apply (f_equal (fun z => z * SQRT_2)) in Q. field_simplify in Q; lra. }
    repeat split; eapply Q; eassumption. }
  destruct K as (K1 & K2 & K3). split; intros i j Hi Hj; sums; tens; idx i; idx j; tred; rewrite ?K1, ?K2, ?K3; kfield.
Qed.
Theorem C62_decompose_stale_refuted :
  exists t sym s k, t2_decompose t sym (t2_new General) = Ok (s, k) /\ t2_rep sym = t2_rep t /\
    eq2 (mtrans (tens2 t)) (tens2 t) /\ tens2 s 0%nat 1%nat <> tens2 s 1%nat 0%nat.
Proof.
  exists (t2_identity General), (mkT2 General (fun m => if (m =? 6)%nat then SQRT_2 else 0)).
  eexists; eexists. split; [reflexivity|]. split; [reflexivity|]. split; [unfold t2_identity; done2|].
  tens. tred. rewrite !div_sq2. pose proof sq2. pose proof sq2_pos. lra.
Qed.
(** the axial vector of the skew part: W u = omega x u for every u *)
Definition cross (a b : nat -> R) (i : nat) : R := sum3 (fun j => sum3 (fun k => lc i j k * a j * b k)).
Theorem C62_axial_vector t om u i : (i < 3)%nat ->
  sum3 (fun j => (tens2 t i j - tens2 t j i) / 2 * u j) = cross (t2_axial_vector t om) u i.
Proof.
  intros Hi. unfold cross, sum3, lc. tens. destruct t as [[| |] v]; unfold t2_axial_vector; idx i; tred; kfield.
Qed.
Theorem C62_cross a r b i : (i < 3)%nat -> t1_cross a r b i = cross a b i.
Proof. intros Hi. unfold cross, sum3, lc. idx i; tred; ring. Qed.
Theorem C62_dot a b : t1_dot a b = sum3 (fun i => a i * b i).
Proof. reflexivity. Qed.

(** the invariants *)
Theorem C62_invariants t :
  t2_invariant_ii1 t = mtrace (tens2 t) /\
  t2_invariant_ii2 t = (mtrace (tens2 t) * mtrace (tens2 t) - mtrace (mmul (tens2 t) (tens2 t))) / 2 /\
  t2_invariant_ii3 t = mdet (tens2 t) /\
  t2_invariant_jj2 t = mtrace (mmul (mdev (tens2 t)) (mdev (tens2 t))) / 2 /\
  t2_invariant_jj3 t = mdet (mdev (tens2 t)).
Proof.
  split; [apply C62_trace|]. split.
  { sums. tens. destruct t as [[| |] v]; unfold t2_invariant_ii2; tred; kfield. }
  split; [apply C62_determinant|]. split; [|apply C62_deviator_determinant].
  sums. cbn [Nat.eqb]. tens. destruct t as [[| |] v]; unfold t2_invariant_jj2; tred; kfield.
Qed.
Theorem C62_stress_strain_invariants t :
  t2_invariant_sigma_s t = mtrace (tens2 t) / sqrt 3 /\
  t2_invariant_sigma_t t = mfrob (mdev (tens2 t)) /\
  t2_invariant_p t = mtrace (tens2 t) / 3 /\
  t2_invariant_q t = sqrt (3 / 2) * mfrob (mdev (tens2 t)) /\
  t2_invariant_eps_s t = mtrace (tens2 t) / sqrt 3 /\
  t2_invariant_eps_t t = mfrob (mdev (tens2 t)) /\
  t2_invariant_eps_v t = mtrace (tens2 t) /\
  t2_invariant_eps_d t = sqrt (2 / 3) * mfrob (mdev (tens2 t)).
Proof.
  rewrite <- C62_trace, <- C62_deviator_norm.
  unfold t2_invariant_sigma_s, t2_invariant_sigma_t, t2_invariant_p, t2_invariant_q, t2_invariant_eps_s,
    t2_invariant_eps_t, t2_invariant_eps_v, t2_invariant_eps_d, SQRT_3, SQRT_3_BY_2, SQRT_2_BY_3.
  repeat split; ring.
Qed.
(** for a symmetric tensor the deviatoric stress is sqrt (3 J2) and the radius sqrt (2 J2) *)
Theorem C62_q_jj2 t : eq2 (mtrans (tens2 t)) (tens2 t) ->
  0 <= t2_invariant_jj2 t /\
  t2_invariant_q t = sqrt (3 * t2_invariant_jj2 t) /\ t2_invariant_sigma_t t = sqrt (2 * t2_invariant_jj2 t).
Proof.
  intros H. unfold t2_invariant_q, t2_invariant_sigma_t. rewrite C62_deviator_norm.
  destruct (C62_invariants t) as (_ & _ & _ & E & _).
  assert (F : mddot (mdev (tens2 t)) (mdev (tens2 t)) = 2 * t2_invariant_jj2 t).
  { rewrite E. sums. cbn [Nat.eqb].
    pose proof (H 0%nat 1%nat ltac:(lia) ltac:(lia)) as A. pose proof (H 0%nat 2%nat ltac:(lia) ltac:(lia)) as B.
    pose proof (H 1%nat 2%nat ltac:(lia) ltac:(lia)) as C. unfold mtrans in *. rewrite A, B, C. field. }
  assert (G : 0 <= t2_invariant_jj2 t).
  { assert (0 <= mddot (mdev (tens2 t)) (mdev (tens2 t))); [|lra]. unfold mddot, sum3. 
    repeat apply Rplus_le_le_0_compat; apply Rle_0_sqr. }
  split; [exact G|]. unfold mfrob, SQRT_3_BY_2. rewrite F. split; [|reflexivity].
  rewrite <- sqrt_mult by lra. f_equal. field.
Qed.
Theorem C62_q_general_refuted : exists t, t2_invariant_jj2 t < 0 /\ 0 < t2_invariant_q t.
Proof.
  exists (mkT2 General (fun m => if (m =? 6)%nat then 1 else 0)). split.
  - unfold t2_invariant_jj2. tred. lra.
  - unfold t2_invariant_q, t2_deviator_norm, SQRT_3_BY_2. tred. apply Rmult_lt_0_compat; apply sqrt_lt_R0; lra.
Qed.

(** ** the Lode invariant *)
Theorem C62_lode t : 
  (/ 10 ^ 9 < t2_invariant_jj2 t /\
   t2_invariant_lode t = Some (3 * sqrt 3 * mdet (mdev (tens2 t)) / (2 * Rpower (t2_invariant_jj2 t) (3 / 2)))) \/
  (t2_invariant_jj2 t <= / 10 ^ 9 /\ t2_invariant_lode t = None).
Proof.
  unfold t2_invariant_lode. destruct (Rltb TOL_J2 (t2_invariant_jj2 t)) eqn:E.
  - left. apply Rltb_true in E. unfold TOL_J2 in E. split; [lra|]. f_equal.
    destruct (C62_invariants t) as (_ & _ & _ & _ & ->). unfold SQRT_3. field.
    unfold Rpower. apply Rgt_not_eq, exp_pos.
  - right. apply Rltb_false in E. unfold TOL_J2 in E. split; [lra|reflexivity].
Qed.
(** 27 J3^2 <= 4 J2^3 for a symmetric matrix: three times the difference is the
    Gram determinant of s and the deviator of s^2 *)
Lemma lode_bound (a b c d e f : R) : a + b + c = 0 ->
  let j2 := (a * a + b * b + c * c) / 2 + d * d + e * e + f * f in
  let j3 := a * b * c + 2 * d * e * f - a * e * e - b * f * f - c * d * d in
  27 * (j3 * j3) <= 4 * (j2 * j2 * j2).
Proof.
  intros H. assert (c = - a - b) by lra. subst c. clear H. set (c := - a - b). intros j2 j3.
  set (x11 := a * a + d * d + f * f - 2 / 3 * j2). set (x22 := d * d + b * b + e * e - 2 / 3 * j2).
  set (x33 := f * f + e * e + c * c - 2 / 3 * j2).
  set (x12 := a * d + d * b + f * e). set (x23 := d * f + b * e + e * c). set (x13 := a * f + d * e + f * c).
  assert (E : 4 * (j2 * j2 * j2) - 27 * (j3 * j3) =
    3 * ((a * x22 - b * x11) ^ 2 + (a * x33 - c * x11) ^ 2 + (b * x33 - c * x22) ^ 2
       + 2 * ((a * x12 - d * x11) ^ 2 + (a * x23 - e * x11) ^ 2 + (a * x13 - f * x11) ^ 2
       + (b * x12 - d * x22) ^ 2 + (b * x23 - e * x22) ^ 2 + (b * x13 - f * x22) ^ 2
       + (c * x12 - d * x33) ^ 2 + (c * x23 - e * x33) ^ 2 + (c * x13 - f * x33) ^ 2)
       + 4 * ((d * x23 - e * x12) ^ 2 + (d * x13 - f * x12) ^ 2 + (e * x13 - f * x23) ^ 2))).
  { unfold x11, x22, x33, x12, x23, x13, j2, j3, c. field. }
  clearbody x11 x22 x33 x12 x23 x13 j2 j3.
  assert (S : forall z, 0 <= z ^ 2) by (intros; apply pow2_ge_0).
  cut (0 <= 4 * (j2 * j2 * j2) - 27 * (j3 * j3)); [lra|]. rewrite E.
  repeat first [apply S | lra | apply Rmult_le_pos | apply Rplus_le_le_0_compat].
Qed.
Lemma abs_le_one x : Rabs x <= 1 -> -1 <= x <= 1.
Proof. unfold Rabs. destruct (Rcase_abs x); lra. Qed.
Theorem C62_lode_range t l : eq2 (mtrans (tens2 t)) (tens2 t) -> t2_invariant_lode t = Some l -> -1 <= l <= 1.
Proof.
  intros H HL. destruct (C62_lode t) as [[P E]|[_ E]]; rewrite E in HL; [|discriminate]. injection HL as <-.
  destruct (C62_invariants t) as (_ & _ & _ & J2 & _).
  set (s := mdev (tens2 t)) in *.
  pose proof (H 0%nat 1%nat ltac:(lia) ltac:(lia)) as A. pose proof (H 0%nat 2%nat ltac:(lia) ltac:(lia)) as B.
  pose proof (H 1%nat 2%nat ltac:(lia) ltac:(lia)) as C. unfold mtrans in *.
  assert (T : s 0%nat 0%nat + s 1%nat 1%nat + s 2%nat 2%nat = 0).
  { unfold s. sums. cbn [Nat.eqb]. field. }
  pose proof (lode_bound _ _ _ (s 0%nat 1%nat) (s 1%nat 2%nat) (s 0%nat 2%nat) T) as L. cbn zeta in L.
  assert (A' : s 1%nat 0%nat = s 0%nat 1%nat) by (unfold s; sums; cbn [Nat.eqb]; lra).
  assert (B' : s 2%nat 0%nat = s 0%nat 2%nat) by (unfold s; sums; cbn [Nat.eqb]; lra).
  assert (C' : s 2%nat 1%nat = s 1%nat 2%nat) by (unfold s; sums; cbn [Nat.eqb]; lra).
  set (j2 := t2_invariant_jj2 t) in *.
  assert (K : 27 * (mdet s * mdet s) <= 4 * (j2 * j2 * j2)).
  { replace (mdet s) with (s 0%nat 0%nat * s 1%nat 1%nat * s 2%nat 2%nat + 2 * s 0%nat 1%nat * s 1%nat 2%nat * s 0%nat 2%nat
      - s 0%nat 0%nat * s 1%nat 2%nat * s 1%nat 2%nat - s 1%nat 1%nat * s 0%nat 2%nat * s 0%nat 2%nat
      - s 2%nat 2%nat * s 0%nat 1%nat * s 0%nat 1%nat)
      by (unfold mdet, sum3, lc; rewrite A', B', C'; ring).
    replace j2 with ((s 0%nat 0%nat * s 0%nat 0%nat + s 1%nat 1%nat * s 1%nat 1%nat + s 2%nat 2%nat * s 2%nat 2%nat) / 2
      + s 0%nat 1%nat * s 0%nat 1%nat + s 1%nat 2%nat * s 1%nat 2%nat + s 0%nat 2%nat * s 0%nat 2%nat)
      by (rewrite J2; unfold mtrace, mmul, sum3; rewrite A', B', C'; field).
    exact L. }
  clearbody j2 s. clear - K P.
  assert (P0 : 0 < j2) by lra.
  assert (W : Rpower j2 (3 / 2) * Rpower j2 (3 / 2) = j2 * j2 * j2).
  { rewrite <- Rpower_plus. replace (3 / 2 + 3 / 2) with (INR 3) by (cbn; lra). rewrite Rpower_pow by assumption. ring. }
  set (w := Rpower j2 (3 / 2)) in *. assert (PW : 0 < w) by apply exp_pos.
  apply abs_le_one. unfold Rdiv. rewrite Rabs_mult, Rabs_inv. rewrite !Rabs_mult, (Rabs_pos_eq (2)), (Rabs_pos_eq 3), (Rabs_pos_eq w) by lra.
  rewrite (Rabs_pos_eq (sqrt 3)) by apply sqrt_pos.
  apply (Rmult_le_reg_r (2 * w)); [lra|]. rewrite Rmult_assoc, Rinv_l by lra. rewrite Rmult_1_l, Rmult_1_r.
  apply Rsqr_incr_0_var; [|lra]. unfold Rsqr.
  pose proof (sqrt_sqrt 3 ltac:(lra)) as S3.
  assert (S4 : Rabs (mdet s) * Rabs (mdet s) = mdet s * mdet s) by (rewrite <- Rabs_mult; apply Rabs_pos_eq, Rle_0_sqr).
  replace (3 * sqrt 3 * Rabs (mdet s) * (3 * sqrt 3 * Rabs (mdet s)))
    with (9 * (sqrt 3 * sqrt 3) * (Rabs (mdet s) * Rabs (mdet s))) by ring.
  rewrite S3, S4. replace (2 * w * (2 * w)) with (4 * (w * w)) by ring. rewrite W. lra.
Qed.

(** ** building a tensor from octahedral components *)
Lemma sq3 : SQRT_3 * SQRT_3 = 3. Proof. unfold SQRT_3. apply sqrt_sqrt. lra. Qed.
Lemma sq3_pos : 0 < SQRT_3. Proof. unfold SQRT_3. apply sqrt_lt_R0. lra. Qed.
Lemma sq6 : SQRT_6 = SQRT_2 * SQRT_3.
Proof. unfold SQRT_6, SQRT_2, SQRT_3. rewrite <- sqrt_mult by lra. f_equal; ring. Qed.
Lemma div_sq3 x : x / SQRT_3 = x * SQRT_3 / 3.
Proof. pose proof sq3. pose proof sq3_pos. field_simplify_eq; [|lra]. replace (SQRT_3 ^ 2) with 3 by (rewrite <- H; ring). ring. Qed.
Lemma div_sq6 x : x / SQRT_6 = x * SQRT_2 * SQRT_3 / 6.
Proof.
  rewrite sq6. pose proof sq2. pose proof sq2_pos. pose proof sq3. pose proof sq3_pos.
  field_simplify_eq; [|lra]. replace (SQRT_3 ^ 2) with 3 by (rewrite <- H1; ring).
  replace (SQRT_2 ^ 2) with 2 by (rewrite <- H; ring). ring.
Qed.
(** what the two constructors share: radius [r] and angle [th] measured from the first axis *)
Lemma stars d r c s two_dim : c * c + s * s = 1 -> 
  let t := t2_from_stars (r * c) d (r * s) two_dim in
  (forall i j, (i < 3)%nat -> (j < 3)%nat -> i <> j -> tens2 t i j = 0) /\
  t2_invariant_sigma_s t = d /\ t2_invariant_jj2 t = r * r / 2 /\ t2_deviator_norm t = Rabs r /\
  t2_invariant_jj3 t = r * r * r * SQRT_2 * SQRT_3 / 18 * (4 * c * c * c - 3 * c).
Proof.
  intros H t. pose proof sq2 as H2. pose proof sq3 as H3.
  assert (HS : s * s = 1 - c * c) by lra.
  split.
  { intros i j Hi Hj Hn. unfold t. tens. destruct two_dim; idx i; idx j; try congruence; tred; kfield. }
  split; [|split; [|split]].
  - unfold t, t2_invariant_sigma_s, t2_trace. destruct two_dim; tred; rewrite ?div_sq6, ?div_sq3, ?div_sq2; field [H2 H3].
  - unfold t, t2_invariant_jj2. destruct two_dim; tred; rewrite ?div_sq6, ?div_sq3, ?div_sq2; field [H2 H3 HS].
  - unfold t, t2_deviator_norm. rewrite <- sqrt_Rsqr_abs. f_equal. unfold Rsqr.
    destruct two_dim; tred; rewrite ?div_sq6, ?div_sq3, ?div_sq2; field [H2 H3 HS].
  - unfold t, t2_invariant_jj3, t2_deviator_determinant.
    destruct two_dim; tred; rewrite ?div_sq6, ?div_sq3, ?div_sq2; field [H2 H3 HS].
Qed.
Lemma cos_triple x : 4 * cos x * cos x * cos x - 3 * cos x = cos (3 * x).
Proof.
  replace (3 * x) with (x + 2 * x) by ring. rewrite cos_plus, cos_2a_cos, sin_2a.
  pose proof (sin2_cos2 x) as E. unfold Rsqr in E. replace (sin x * (2 * sin x * cos x)) with (2 * cos x * (sin x * sin x)) by ring.
  replace (sin x * sin x) with (1 - cos x * cos x) by lra. ring.
Qed.
Lemma lode_val r k : 0 < r -> (3 / 2) * SQRT_3 * (r * r * r * SQRT_2 * SQRT_3 / 18 * k) / Rpower (r * r / 2) (3 / 2) = k.
Proof.
  intros Hr. pose proof sq2 as H2. pose proof sq3 as H3. pose proof sq2_pos as P2.
  assert (E : Rpower (r * r / 2) (3 / 2) = r * r * r * SQRT_2 / 4).
  { replace (r * r / 2) with (Rpower (r * SQRT_2 / 2) 2).
    2: { change 2 with (INR 2) at 2. rewrite Rpower_pow by nra. cbn [pow]. field [H2]. }
    rewrite Rpower_mult. replace (2 * (3 / 2)) with (INR 3) by (cbn; lra). rewrite Rpower_pow by nra. cbn [pow]. field [H2]. }
  rewrite E. field_simplify_eq; [|lra]. replace (SQRT_3 ^ 2) with 3 by (rewrite <- H3; ring). ring.
Qed.
(** `new_from_octahedral` returns a diagonal tensor with exactly the requested
    distance, radius and Lode invariant, and refuses a Lode value outside [-1, 1] *)
Theorem C62_octahedral d r l two_dim : 0 < r -> / 10 ^ 9 < r * r / 2 -> -1 <= l <= 1 ->
  exists t, t2_new_from_octahedral d r l two_dim = Ok t /\
    (forall i j, (i < 3)%nat -> (j < 3)%nat -> i <> j -> tens2 t i j = 0) /\
    t2_invariants_octahedral t = (d, r, Some l).
Proof.
  intros Hr Hj Hl. unfold t2_new_from_octahedral.
  replace (Rltb l (-1)) with false by (symmetry; apply Rltb_false; lra).
  replace (Rltb 1 l) with false by (symmetry; apply Rltb_false; lra). cbn [orb].
  eexists; split; [reflexivity|]. set (th := acos l / 3).
  destruct (stars d r (cos th) (sin th) two_dim) as (A & B & C & D & E).
  { pose proof (sin2_cos2 th) as E. unfold Rsqr in E. lra. }
  set (t := t2_from_stars (r * cos th) d (r * sin th) two_dim) in *. split; [exact A|].
  unfold t2_invariants_octahedral. f_equal; [f_equal|].
  - exact B.
  - rewrite D. apply Rabs_pos_eq. lra.
  - unfold t2_invariant_lode. rewrite C, E. replace (Rltb TOL_J2 (r * r / 2)) with true
      by (symmetry; apply Rltb_true; unfold TOL_J2; lra).
    f_equal. rewrite lode_val by assumption. rewrite cos_triple. unfold th.
    replace (3 * (acos l / 3)) with (acos l) by field. apply cos_acos. lra.
Qed.
Theorem C62_octahedral_range d r l two_dim : l < -1 \/ 1 < l ->
  exists e, t2_new_from_octahedral d r l two_dim = Err e.
Proof.
  intros H. unfold t2_new_from_octahedral. destruct (Rltb l (-1)) eqn:A, (Rltb 1 l) eqn:B; cbn [orb]; eauto.
  apply Rltb_false in A, B. lra.
Qed.
Theorem C62_octahedral_alpha d r al two_dim : 0 < r -> / 10 ^ 9 < r * r / 2 -> - PI <= al <= PI ->
  exists t, t2_new_from_octahedral_alpha d r al two_dim = Ok t /\
    (forall i j, (i < 3)%nat -> (j < 3)%nat -> i <> j -> tens2 t i j = 0) /\
    t2_invariants_octahedral t = (d, r, Some (- sin (3 * al))).
Proof.
  intros Hr Hj Hl. unfold t2_new_from_octahedral_alpha.
  replace (Rltb al (- PI)) with false by (symmetry; apply Rltb_false; lra).
  replace (Rltb PI al) with false by (symmetry; apply Rltb_false; lra). cbn [orb].
  eexists; split; [reflexivity|].
  destruct (stars d r (sin al) (cos al) two_dim) as (A & B & C & D & E).
  { pose proof (sin2_cos2 al) as E. unfold Rsqr in E. lra. }
  set (t := t2_from_stars (r * sin al) d (r * cos al) two_dim) in *. split; [exact A|].
  unfold t2_invariants_octahedral. f_equal; [f_equal|].
  - exact B.
  - rewrite D. apply Rabs_pos_eq. lra.
  - unfold t2_invariant_lode. rewrite C, E. replace (Rltb TOL_J2 (r * r / 2)) with true
      by (symmetry; apply Rltb_true; unfold TOL_J2; lra).
    f_equal. rewrite lode_val by assumption.
    replace (sin al) with (cos (PI / 2 - al)) by (rewrite cos_shift; reflexivity).
    rewrite cos_triple. replace (3 * (PI / 2 - al)) with (PI / 2 - 3 * al + PI) by field.
    rewrite neg_cos, cos_shift. reflexivity.
Qed.

(** non-vacuity: a non-symmetric tensor with every component at work *)
Example C62_example :
  let t := mkT2 General (fun m => INR m) in
  t2_rep (t2_new General) = t2_rep t /\ t2_determinant t = 2 * (36 - 9) / 2 + 5 * 42 * SQRT_2 / 2 - 4 * 48 * SQRT_2 / 2 - 3 * 56 * SQRT_2 / 2 + 32 - 25 / 2 + 60 * SQRT_2 / 2.
Proof. cbn zeta. split; [reflexivity|]. unfold t2_determinant. tred. kfield. Qed.
Example C62_octahedral_example : 0 < 2 /\ / 10 ^ 9 < 2 * 2 / 2 /\ -1 <= 1 / 2 <= 1.
Proof. lra. Qed.

Print Assumptions C62_inverse.
Print Assumptions C62_decompose.
Print Assumptions C62_lode_range.
Print Assumptions C62_octahedral.
Print Assumptions C62_octahedral_alpha.
