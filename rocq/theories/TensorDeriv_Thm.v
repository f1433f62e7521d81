(** C65: the derivative tensors are the derivatives. *)
From Coq Require Import Reals Lra List.
From Coquelicot Require Import Coquelicot.
From Verif Require Import Base RBase Tensor_Model Tensor4_Model Tensor_Spec Tensor_Lib Tensor_Thm Tensor2_Thm Tensor4_Thm
  TensorMix_Thm TensorMix2_Thm TensorMix3_Thm TensorDeriv_Model TensorDeriv_Spec.
Open Scope R_scope.

Lemma gradient_eq P f a g g' : eq2 g' g -> gradient P f a g -> gradient P f a g'.
Proof.
  intros E G h H. replace (mddot g' h) with (mddot g h); [apply G; exact H|].
  unfold mddot, sum3. rewrite !E by lia. reflexivity.
Qed.
Lemma jacobian_eq P f a d d' : eq4 d' d -> jacobian P f a d -> jacobian P f a d'.
Proof.
  intros E G h H i j Hi Hj. replace (a4_ddot2 d' h i j) with (a4_ddot2 d h i j); [apply G; assumption|].
  unfold a4_ddot2, sum3. rewrite !E by lia. reflexivity.
Qed.
Lemma grad_frob a : 0 < mfrob a -> gradient every mfrob a (mscale (/ mfrob a) a).
Proof.
  intros P h _. unfold mfrob.
  assert (Q : 0 < mddot a a).
  { destruct (Rle_or_lt (mddot a a) 0) as [L|]; [|assumption]. unfold mfrob in P. rewrite sqrt_neg_0 in P by exact L. lra. }
  assert (U : is_derive (fun t => mddot (line a h t) (line a h t)) 0 (2 * mddot a h)).
  { apply (der_poly _ _ (mddot a a) (mddot h h) 0). intros t. un. ring. }
  assert (L0 : mddot (line a h 0) (line a h 0) = mddot a a) by (un; ring).
  eapply der_eq; [apply (der_sqrt _ _ _ U); rewrite L0; exact Q|]. cbv beta. rewrite L0.
  assert (0 < sqrt (mddot a a)) by (apply sqrt_lt_R0; exact Q). set (w := sqrt (mddot a a)) in *. clearbody w. un. field. lra.
Qed.
Lemma grad_frob_dev a : 0 < mfrob (mdev a) -> gradient every (fun b => mfrob (mdev b)) a (mscale (/ mfrob (mdev a)) (mdev a)).
Proof.
  intros P h _. pose proof (grad_frob _ P (mdev h) I) as G.
  eapply der_eq; [eapply der_ext; [|exact G]|].
  - intros t. unfold mfrob. f_equal. un. cbn [Nat.eqb]. field.
  - set (w := mfrob (mdev a)) in *. clearbody w. un. cbn [Nat.eqb]. field. lra.
Qed.
Lemma grad_scal P f a g k : gradient P f a g -> gradient P (fun b => k * f b) a (mscale k g).
Proof.
  intros G h H. eapply der_eq; [apply der_scal, G, H|]. un. ring.
Qed.
Lemma grad_trace k a : gradient every (fun b => mtrace b / k) a (mscale (/ k) mident).
Proof.
  intros h _. apply (der_poly _ _ (mtrace a / k) 0 0). intros t. un. cbn [Nat.eqb]. unfold Rdiv. ring.
Qed.
Lemma J2_pos a : sym a -> J2 a = mddot (mdev a) (mdev a) / 2.
Proof. intros A. un. cbn [Nat.eqb]. symm. field. Qed.
Lemma frob_dev_J2 a : sym a -> mfrob (mdev a) = sqrt (2 * J2 a).
Proof. intros A. unfold mfrob. rewrite J2_pos by exact A. f_equal. field. Qed.
Lemma sqrt_2x x : 0 < x -> sqrt (2 * x) = SQRT_2 * sqrt x.
Proof. intros H. unfold SQRT_2. apply sqrt_mult; lra. Qed.

(** ** tensor level *)
Lemma tens2_sym s : rep_symmetric (t2_rep s) = true -> sym (tens2 s).
Proof.
  destruct s as [[| |] v]; cbn; intros H; try discriminate; intros i j Hi Hj; unfold mtrans; tens; idx i; idx j; tred; unfold Rdiv; ring.
Qed.
Lemma scale_vec_val d a : eq2 (tens2 (scale_vec d a)) (mscale a (tens2 d)).
Proof.
  intros i j Hi Hj. unfold scale_vec. rewrite (tens2_val d _ (fun m => a * t2_vec d m)) by (try assumption; intros m Hm;
    rewrite (loop_wr _ (fun k x => x * a)); apply Nat.ltb_lt in Hm; rewrite Hm; ring).
  unfold mscale. tens. rewrite c2_scal. apply c2_ext. intros m _. unfold ext. destruct (m <? _)%nat; ring.
Qed.
Lemma J2_t s : t2_invariant_jj2 s = J2 (tens2 s). Proof. apply C62_invariants. Qed.
Lemma J3_t s : t2_invariant_jj3 s = J3 (tens2 s). Proof. apply C62_invariants. Qed.
Lemma tol_pos : 0 < TOL_J2. Proof. unfold TOL_J2. lra. Qed.
Ltac jj2t s := rewrite ?J2_t, ?J3_t; destruct (Rltb TOL_J2 (J2 (tens2 s))) eqn:?T;
  [left; apply Rltb_true in T | right; apply Rltb_false in T; split; [unfold TOL_J2 in T; lra | first [reflexivity | eauto]]].
Ltac symreps H1 := rewrite H1; cbn [assert_ bind]; reps.

Theorem C65_norm d1 s : t2_rep d1 = t2_rep s ->
  (0 < mfrob (tens2 s) /\ exists d, deriv1_norm d1 s = Ok (d, Some (mfrob (tens2 s))) /\ t2_rep d = t2_rep s /\
     gradient every mfrob (tens2 s) (tens2 d)) \/
  (mfrob (tens2 s) = 0 /\ deriv1_norm d1 s = Ok (d1, None)).
Proof.
  intros E. unfold deriv1_norm. rewrite E. reps. rewrite C61_norm. destruct (Rltb 0 (mfrob (tens2 s))) eqn:T.
  - left. apply Rltb_true in T. split; [exact T|]. destruct (C61_set_tensor d1 1 s E) as (d & -> & D1 & D2). cbn [bind].
    eexists; split; [reflexivity|]. split; [cbn [t2_put t2_rep]; congruence|]. eapply gradient_eq; [|apply grad_frob; exact T].
    intros i j Hi Hj. set (w := mfrob (tens2 s)) in *. clearbody w.
    rewrite (tens2_val d _ (fun m => / w * t2_vec d m)) by (try assumption; intros m Hm;
      rewrite (loop_wr _ (fun k x => x / w)); apply Nat.ltb_lt in Hm; rewrite Hm; unfold Rdiv; ring).
    unfold mscale. specialize (D2 i j Hi Hj). unfold mscale in D2. rewrite Rmult_1_l in D2. rewrite <- D2. tens. rewrite c2_scal. apply c2_ext.
    intros m _. unfold ext. destruct (m <? _)%nat; ring.
  - right. apply Rltb_false in T. split; [|reflexivity]. pose proof (sqrt_pos (mddot (tens2 s) (tens2 s))). unfold mfrob in *. lra.
Qed.
Theorem C65_jj2 d1 s : rep_symmetric (t2_rep s) = true -> t2_rep d1 = t2_rep s ->
  exists d, deriv1_invariant_jj2 d1 s = Ok d /\ t2_rep d = t2_rep s /\ eq2 (tens2 d) (mdev (tens2 s)) /\ gradient sym J2 (tens2 s) (tens2 d).
Proof.
  intros S E. unfold deriv1_invariant_jj2. rewrite S, E. reps. destruct (C62_deviator s d1 E) as (d & D1 & D2 & D3 & _).
  exists d. splits; auto. eapply gradient_eq; [exact D3|apply grad_J2, tens2_sym, S].
Qed.
Theorem C65_jj3 d1 s0 s : rep_symmetric (t2_rep s) = true -> t2_rep d1 = t2_rep s -> t2_rep s0 = t2_rep s ->
  exists d s1, deriv1_invariant_jj3 d1 s0 s = Ok (d, s1) /\ t2_rep d = t2_rep s /\ t2_rep s1 = t2_rep s /\
    eq2 (tens2 d) (dJ3 (tens2 s)) /\ eq2 (tens2 s1) (mdev (tens2 s)) /\ gradient sym J3 (tens2 s) (tens2 d).
Proof.
  intros S E1 E2. unfold deriv1_invariant_jj3. rewrite S, E1, E2. reps.
  destruct (C62_deviator s s0 E2) as (s1 & -> & A2 & A3 & _). cbn [bind].
  destruct (C62_squared s1 d1) as (d & -> & B2 & B3); [congruence|]. cbn [bind].
  assert (V : eq2 (tens2 (t2_put d (let v := t2_vec d in
      let v := wr v 0 (v 0%nat - TWO_BY_3 * t2_invariant_jj2 s) in
      let v := wr v 1 (v 1%nat - TWO_BY_3 * t2_invariant_jj2 s) in
      wr v 2 (v 2%nat - TWO_BY_3 * t2_invariant_jj2 s)))) (dJ3 (tens2 s))).
  { rewrite J2_t. set (x := J2 (tens2 s)). assert (X : x = J2 (tens2 s)) by reflexivity. clearbody x.
    assert (V : eq2 (tens2 (t2_put d (let v := t2_vec d in
      let v := wr v 0 (v 0%nat - TWO_BY_3 * x) in
      let v := wr v 1 (v 1%nat - TWO_BY_3 * x) in
      wr v 2 (v 2%nat - TWO_BY_3 * x)))) (msub (tens2 d) (mscale (2 / 3 * x) mident))).
    { unfold TWO_BY_3. destruct d as [[| |] v]; done2. }
    intros i j Hi Hj. rewrite V by assumption. unfold dJ3, msub at 1 2. rewrite <- X. f_equal.
    rewrite B3 by assumption. unfold mmul, sum3. rewrite !A3 by lia. reflexivity. }
  do 2 eexists. split; [reflexivity|]. split; [cbn [t2_put t2_rep]; congruence|]. split; [exact A2|]. split; [exact V|]. split; [exact A3|].
  eapply gradient_eq; [exact V|apply grad_J3, tens2_sym, S].
Qed.
Lemma fill_iso_val d c : t2_rep (fill_iso d c) = t2_rep d /\ eq2 (tens2 (fill_iso d c)) (mscale c mident).
Proof. split; [reflexivity|]. unfold fill_iso. destruct d as [[| |] v]; done2. Qed.
Theorem C65_sigma_s d1 s : t2_rep d1 = t2_rep s ->
  exists d, deriv1_invariant_sigma_s d1 s = Ok d /\ t2_rep d = t2_rep s /\
    gradient every (fun b => mtrace b / sqrt 3) (tens2 s) (tens2 d).
Proof.
  intros E. unfold deriv1_invariant_sigma_s. rewrite E. reps. eexists; split; [reflexivity|]. destruct (fill_iso_val d1 (1 / SQRT_3)) as [A B].
  split; [congruence|]. eapply gradient_eq; [|apply grad_trace]. intros i j Hi Hj. rewrite B by assumption. unfold mscale, SQRT_3, Rdiv. ring.
Qed.
Theorem C65_p d1 s : t2_rep d1 = t2_rep s ->
  exists d, deriv1_invariant_p d1 s = Ok d /\ t2_rep d = t2_rep s /\
    gradient every (fun b => mtrace b / 3) (tens2 s) (tens2 d).
Proof.
  intros E. unfold deriv1_invariant_p. rewrite E. reps. eexists; split; [reflexivity|]. destruct (fill_iso_val d1 ONE_BY_3) as [A B].
  split; [congruence|]. eapply gradient_eq; [|apply grad_trace]. intros i j Hi Hj. rewrite B by assumption. unfold mscale, ONE_BY_3, Rdiv. ring.
Qed.
Lemma gradient_weaken (P : m3 -> Prop) f a g : gradient every f a g -> gradient P f a g.
Proof. intros G h _. apply G. exact I. Qed.
Theorem C65_sigma_t d1 s : rep_symmetric (t2_rep s) = true -> t2_rep d1 = t2_rep s ->
  (/ 10 ^ 9 < J2 (tens2 s) /\ exists d, deriv1_invariant_sigma_t d1 s = Ok (d, Some (J2 (tens2 s))) /\ t2_rep d = t2_rep s /\
     gradient every (fun b => mfrob (mdev b)) (tens2 s) (tens2 d)) \/
  (J2 (tens2 s) <= / 10 ^ 9 /\ deriv1_invariant_sigma_t d1 s = Ok (d1, None)).
Proof.
  intros S E. unfold deriv1_invariant_sigma_t. rewrite S, E. reps. jj2t s.
  split; [unfold TOL_J2 in T; lra|]. pose proof tol_pos. destruct (C65_jj2 d1 s S E) as (d & -> & D1 & D2 & _). cbn [bind].
  eexists; split; [reflexivity|]. split; [exact D1|].
  assert (F : mfrob (mdev (tens2 s)) = sqrt (2 * J2 (tens2 s))) by (apply frob_dev_J2, tens2_sym, S).
  assert (0 < sqrt (2 * J2 (tens2 s))) by (apply sqrt_lt_R0; lra).
  eapply gradient_eq; [|apply grad_frob_dev; rewrite F; assumption].
  intros i j Hi Hj. rewrite scale_vec_val, F by assumption. unfold mscale. rewrite D2 by assumption. unfold Rdiv. ring.
Qed.
Theorem C65_q d1 s : rep_symmetric (t2_rep s) = true -> t2_rep d1 = t2_rep s ->
  (/ 10 ^ 9 < J2 (tens2 s) /\ exists d, deriv1_invariant_q d1 s = Ok (d, Some (J2 (tens2 s))) /\ t2_rep d = t2_rep s /\
     gradient every (fun b => sqrt (3 / 2) * mfrob (mdev b)) (tens2 s) (tens2 d)) \/
  (J2 (tens2 s) <= / 10 ^ 9 /\ deriv1_invariant_q d1 s = Ok (d1, None)).
Proof.
  intros S E. unfold deriv1_invariant_q. rewrite S, E. reps. jj2t s.
  split; [unfold TOL_J2 in T; lra|]. pose proof tol_pos. destruct (C65_jj2 d1 s S E) as (d & -> & D1 & D2 & _). cbn [bind].
  eexists; split; [reflexivity|]. split; [exact D1|].
  assert (F : mfrob (mdev (tens2 s)) = sqrt (2 * J2 (tens2 s))) by (apply frob_dev_J2, tens2_sym, S).
  assert (0 < sqrt (2 * J2 (tens2 s))) by (apply sqrt_lt_R0; lra).
  eapply gradient_eq; [|apply grad_scal, grad_frob_dev; rewrite F; assumption].
  intros i j Hi Hj. rewrite scale_vec_val, F by assumption. unfold mscale. rewrite D2 by assumption. rewrite sqrt_2x by lra.
  assert (K : sqrt (3 / 2) = SQRT_3 / SQRT_2) by (unfold SQRT_3, SQRT_2; apply sqrt_div_alt; lra). rewrite K.
  assert (P : 0 < sqrt (J2 (tens2 s))) by (apply sqrt_lt_R0; lra). set (w := sqrt (J2 (tens2 s))) in *. set (z := mdev (tens2 s) i j).
  clearbody w z. pose proof sq2_pos. replace (SQRT_3 / SQRT_2 * (/ (SQRT_2 * w) * z)) with (SQRT_3 * z / ((SQRT_2 * SQRT_2) * w)) by (field; lra).
  rewrite sq2. field. lra.
Qed.
(** the gradient of the Lode invariant *)
Definition glode (a : m3) : m3 :=
  msub (mscale (3 / 2 * sqrt 3 * Rpower (J2 a) (- (3 / 2))) (dJ3 a)) (mscale (9 / 4 * sqrt 3 * Rpower (J2 a) (- (5 / 2)) * J3 a) (mdev a)).
Lemma J2_line0 a h : J2 (line a h 0) = J2 a. Proof. apply J2_eq, line0. Qed.
Lemma J3_line0 a h : J3 (line a h 0) = J3 a. Proof. apply J3_eq, line0. Qed.
Lemma pow_J2 a h p : sym a -> sym h -> 0 < J2 a ->
  is_derive (fun t => Rpower (J2 (line a h t)) p) 0 (p * Rpower (J2 a) (p - 1) * mddot (mdev a) h).
Proof.
  intros A H P. eapply der_eq; [apply (der_pow (fun t => J2 (line a h t)) 0 (mddot (mdev a) h)); [apply grad_J2; assumption|]|];
    rewrite J2_line0; [exact P|reflexivity].
Qed.
Lemma lode_alt a : lode a = 3 / 2 * sqrt 3 * (J3 a * Rpower (J2 a) (- (3 / 2))).
Proof.
  unfold lode. rewrite <- inv_pow. unfold Rdiv. rewrite Rinv_mult. field. unfold Rpower. apply Rgt_not_eq, exp_pos.
Qed.
Lemma grad_lode a : sym a -> 0 < J2 a -> gradient sym lode a (glode a).
Proof.
  intros A P h H. eapply der_ext; [intros t; apply lode_alt|].
  eapply der_eq; [apply der_scal, der_mul; [apply grad_J3; assumption|apply (pow_J2 a h (- (3 / 2))); assumption]|].
  cbv beta. rewrite J2_line0, J3_line0. unfold glode. replace (- (3 / 2) - 1) with (- (5 / 2)) by lra.
  set (x := Rpower (J2 a) (- (3 / 2))). set (y := Rpower (J2 a) (- (5 / 2))). set (z := J3 a). set (g3 := dJ3 a). set (g2 := mdev a). set (k := sqrt 3).
  clearbody x y z g3 g2 k. un. field.
Qed.
Theorem C65_lode d1 s0 s : rep_symmetric (t2_rep s) = true -> t2_rep d1 = t2_rep s -> t2_rep s0 = t2_rep s ->
  (/ 10 ^ 9 < J2 (tens2 s) /\ exists d s1, deriv1_invariant_lode d1 s0 s = Ok (d, s1, Some (J2 (tens2 s))) /\ t2_rep d = t2_rep s /\
     gradient sym lode (tens2 s) (tens2 d)) \/
  (J2 (tens2 s) <= / 10 ^ 9 /\ deriv1_invariant_lode d1 s0 s = Ok (d1, s0, None)).
Proof.
  intros S E1 E2. unfold deriv1_invariant_lode. rewrite S, E1, E2. reps. jj2t s.
  split; [unfold TOL_J2 in T; lra|]. pose proof tol_pos. destruct (C65_jj3 d1 s0 s S E1 E2) as (d & s1 & -> & D1 & D2 & D3 & D4 & _). cbn [bind].
  do 2 eexists; split; [reflexivity|]. split; [exact D1|].
  eapply gradient_eq; [|apply grad_lode; [apply tens2_sym, S|lra]].
  intros i j Hi Hj. unfold glode, msub, mscale. rewrite <- D3, <- D4 by assumption. rewrite <- !inv_pow.
  set (x := Rpower (J2 (tens2 s)) (3 / 2)). set (y := Rpower (J2 (tens2 s)) (5 / 2)). set (z := J3 (tens2 s)). clearbody x y z.
  rewrite (tens2_val d _ (fun m => 3 / 2 * SQRT_3 / x * t2_vec d m - 9 / 4 * SQRT_3 / y * z * t2_vec s1 m)) by (try assumption; intros m Hm;
    rewrite (loop_wr _ (fun k v => 3 / 2 * SQRT_3 / x * v - 9 / 4 * SQRT_3 / y * z * t2_vec s1 k)); apply Nat.ltb_lt in Hm; rewrite Hm; reflexivity).
  tens. fold SQRT_3.
  unfold Rminus. rewrite Ropp_mult_distr_l, !c2_scal, c2_plus. apply c2_ext. intros m _. unfold ext, t2_dim. rewrite D1, D2.
  destruct (m <? _)%nat; unfold Rdiv; ring.
Qed.
