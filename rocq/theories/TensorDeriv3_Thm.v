(** C65, continued: derivatives of the square and of the inverse. *)
From Coq Require Import Reals Lra List.
From Coquelicot Require Import Coquelicot.
From Verif Require Import Base RBase Tensor_Model Tensor4_Model Tensor_Spec Tensor_Lib Tensor_Thm Tensor2_Thm Tensor4_Thm
  TensorMix_Thm TensorMix2_Thm TensorMix3_Thm TensorDeriv_Model TensorDeriv_Spec TensorDeriv_Thm TensorDeriv2_Thm.
Import List.ListNotations.
Open Scope R_scope.

(** ** the square *)
Lemma jac_square (P : m3 -> Prop) a d : (forall h, P h -> eq2 (a4_ddot2 d h) (madd (mmul a h) (mmul h a))) -> jacobian P (fun b => mmul b b) a d.
Proof.
  intros D h H i j Hi Hj. rewrite D by assumption. apply (der_poly _ _ (mmul a a i j) (mmul h h i j) 0). intros t. un. ring.
Qed.
Lemma set_ident_val ii : t2_rep (set_ident ii) = t2_rep ii /\ eq2 (tens2 (set_ident ii)) mident.
Proof. split; [reflexivity|]. unfold set_ident. destruct ii as [[| |] v]; done2. Qed.
Theorem C65_squared d2 ii a : t4_rep d2 = General -> t2_rep ii = t2_rep a ->
  exists d ii', deriv_squared_tensor d2 ii a = Ok (d, ii') /\ t4_rep d = General /\ t2_rep ii' = t2_rep a /\
    jacobian every (fun b => mmul b b) (tens2 a) (tens4 d).
Proof.
  intros E E2. unfold deriv_squared_tensor. rewrite E, E2. cbn [rep_eqb assert_ bind]. reps.
  destruct (set_ident_val ii) as [I1 I2]. set (id := set_ident ii) in *. clearbody id.
  destruct (C63_t2_odyad_t2 d2 1 a id E) as (x & -> & X2 & X3); [congruence|]. cbn [bind].
  destruct (C62_transpose a a eq_refl) as (at_ & -> & T2 & T3). cbn [bind].
  destruct (C63_t2_odyad_t2 (t4_new General) 1 id at_ eq_refl) as (y & -> & Y2 & Y3); [congruence|]. cbn [bind].
  do 2 eexists. split; [reflexivity|]. split; [exact X2|]. split; [congruence|]. apply jac_square.
  intros h _ i j Hi Hj.
  assert (V : forall k l, (k < 3)%nat -> (l < 3)%nat ->
    tens4 (t4_put x (loop 9 (fun m mm => loop 9 (fun n mm => wr2 mm m n (mm m n + t4_mat y m n)) mm) (t4_mat x))) i j k l
    = tens2 a i k * mident j l + mident i k * tens2 a l j).
  { intros k l Hk Hl. rewrite (tens4_val x _ (fun m n => t4_mat x m n + t4_mat y m n)); try assumption.
    2: { intros m n Hm Hn. rewrite (loop2_eq _ _ _ (fun m n x => x + t4_mat y m n)) by reflexivity. unfold t4_dim in Hm, Hn. rewrite X2 in Hm, Hn.
         rewrite lt2 by assumption. reflexivity. }
    specialize (X3 i j k l Hi Hj Hk Hl). specialize (Y3 i j k l Hi Hj Hk Hl). unfold a4_scale, odyad in X3, Y3. rewrite Rmult_1_l in X3, Y3.
    rewrite I2, T3 in Y3 by assumption. rewrite I2 in X3 by assumption. unfold mtrans in Y3. rewrite <- X3, <- Y3. tens4t. rewrite c22_plus. apply c22_ext.
    intros m n. unfold t4_dim. rewrite X2, Y2. unfold ext2. destruct ((m <? _) && (n <? _))%nat; ring. }
  unfold a4_ddot2, sum3. rewrite !V by lia. un. idx i; idx j; cbn [Nat.eqb]; ring.
Qed.
Theorem C65_squared_sym d2 ii a : t4_rep d2 = Symmetric -> rep_symmetric (t2_rep a) = true -> t2_rep ii = t2_rep a ->
  exists d ii', deriv_squared_tensor_sym d2 ii a = Ok (d, ii') /\ t4_rep d = Symmetric /\ t2_rep ii' = t2_rep a /\
    jacobian sym (fun b => mmul b b) (tens2 a) (tens4 d).
Proof.
  intros E S E2. unfold deriv_squared_tensor_sym. rewrite E, E2, S. cbn [rep_eqb assert_ bind]. reps.
  destruct (set_ident_val ii) as [I1 I2]. set (id := set_ident ii) in *. clearbody id.
  destruct (C63_t2_qsd_t2 d2 (1 / 2) a id E) as (x & -> & X2 & X3); [congruence|]. cbn [bind].
  do 2 eexists. split; [reflexivity|]. split; [exact X2|]. split; [congruence|]. apply jac_square.
  intros h H i j Hi Hj. unfold a4_ddot2, sum3. rewrite !X3 by lia. unfold a4_scale, qsd, a4_add, odyad, udyad. rewrite !I2 by lia.
  pose proof (tens2_sym a S) as Sa. set (b := tens2 a) in *. clearbody b. un. idx i; idx j; cbn [Nat.eqb]; symm; field.
Qed.
(** ** the inverse *)
Definition inverse3 (x a : m3) : Prop := eq2 (mmul a x) mident /\ eq2 (mmul x a) mident.
Definition madj (a : m3) : m3 := fun i j =>
  let i1 := Nat.modulo (i + 1) 3 in let i2 := Nat.modulo (i + 2) 3 in let j1 := Nat.modulo (j + 1) 3 in let j2 := Nat.modulo (j + 2) 3 in
  a j1 i1 * a j2 i2 - a j1 i2 * a j2 i1.
Lemma madj_mul a : eq2 (mmul (madj a) a) (mscale (mdet a) mident) /\ eq2 (mmul a (madj a)) (mscale (mdet a) mident).
Proof. split; intros i j Hi Hj; unfold madj; un; idx i; idx j; cbn; ring. Qed.
Lemma mdet_mul a b : mdet (mmul a b) = mdet a * mdet b.
Proof. un. cbn. ring. Qed.
Lemma mdet_eq a b : eq2 a b -> mdet a = mdet b.
Proof. intros E. un. rewrite !E by lia. reflexivity. Qed.
Lemma det_nz a x : eq2 (mmul a x) mident -> mdet a <> 0.
Proof.
  intros H Z. pose proof (mdet_mul a x) as M. rewrite (mdet_eq _ _ H), Z in M. un. cbn in M. lra.
Qed.
Lemma right_inverse_val a x : eq2 (mmul a x) mident -> forall i j, (i < 3)%nat -> (j < 3)%nat -> x i j = madj a i j / mdet a.
Proof.
  intros H i j Hi Hj. pose proof (det_nz a x H) as D. destruct (madj_mul a) as [M _].
  assert (E : mmul (mmul (madj a) a) x i j = mmul (madj a) (mmul a x) i j) by (un; ring).
  unfold mmul at 1 3 in E. unfold sum3 in E. rewrite !M, !H in E by lia. apply (Rmult_eq_reg_l (mdet a)); [|exact D].
  replace (mdet a * (madj a i j / mdet a)) with (madj a i j) by (field; exact D). set (z := mdet a) in *. set (y := madj a) in *. clearbody z y.
  un. idx i; idx j; cbn [Nat.eqb] in E; lra.
Qed.
Lemma inverse_exists a : mdet a <> 0 -> inverse3 (fun i j => madj a i j / mdet a) a.
Proof.
  intros D. destruct (madj_mul a) as [M1 M2]. split; intros i j Hi Hj; [specialize (M2 i j Hi Hj)|specialize (M1 i j Hi Hj)];
    set (z := mdet a) in *; set (y := madj a) in *; clearbody z y; un.
  - replace (a i 0%nat * (y 0%nat j / z) + a i 1%nat * (y 1%nat j / z) + a i 2%nat * (y 2%nat j / z)) with ((a i 0%nat * y 0%nat j + a i 1%nat * y 1%nat j + a i 2%nat * y 2%nat j) / z) by (field; exact D).
    rewrite M2. field. exact D.
  - replace (y i 0%nat / z * a 0%nat j + y i 1%nat / z * a 1%nat j + y i 2%nat / z * a 2%nat j) with ((y i 0%nat * a 0%nat j + y i 1%nat * a 1%nat j + y i 2%nat * a 2%nat j) / z) by (field; exact D).
    rewrite M1. field. exact D.
Qed.
Lemma cont_mul (f g : R -> R) x : continuous f x -> continuous g x -> continuous (fun t => f t * g t) x.
Proof. intros. apply (continuous_mult (K := R_AbsRing) f g); assumption. Qed.
Lemma cont_plus (f g : R -> R) x : continuous f x -> continuous g x -> continuous (fun t => f t + g t) x.
Proof. intros. apply (continuous_plus (K := R_AbsRing) (V := R_NormedModule) f g); assumption. Qed.
Lemma cont_scal (k : R) (f : R -> R) x : continuous f x -> continuous (fun t => k * f t) x.
Proof. intros. apply (cont_mul (fun _ => k)); [apply continuous_const|assumption]. Qed.
Lemma cont_sum3 (k : nat -> R) (f : R -> nat -> R) x : (forall p, (p < 3)%nat -> continuous (fun t => f t p) x) -> continuous (fun t => sum3 (fun p => k p * f t p)) x.
Proof.
  intros H. unfold sum3. apply (cont_plus (fun t => k 0%nat * f t 0%nat + k 1%nat * f t 1%nat)); [apply (cont_plus (fun t => k 0%nat * f t 0%nat))|];
    apply cont_scal; apply H; lia.
Qed.
Lemma der_of_factor (f g : R -> R) : (locally 0 (fun t => f t = f 0 + t * g t)) -> continuous g 0 -> is_derive f 0 (g 0 : R).
Proof.
  intros F G. apply (is_derive_ext_loc (fun t => f 0 + t * g t)).
  { eapply filter_imp; [|exact F]. cbv beta. intros t E. symmetry. exact E. }
  apply is_derive_Reals. intros e He.
  destruct (G (ball (g 0) (mkposreal e He)) (locally_ball _ _)) as [d D].
  exists d. intros t T1 T2. assert (B : ball 0 d t) by (change (Rabs (t - 0) < d); rewrite Rminus_0_r; exact T2).
  specialize (D t B). change (Rabs (g t - g 0) < e) in D.
  replace ((f 0 + (0 + t) * g (0 + t) - (f 0 + 0 * g 0)) / t - g 0) with (g t - g 0); [exact D|]. rewrite Rplus_0_l. field. exact T1.
Qed.
Definition dinv (ai h : m3) : m3 := mscale (-1) (mmul ai (mmul h ai)).
Lemma mdet_line_der a h : exists c, is_derive (fun t => mdet (line a h t)) 0 (c : R).
Proof.
  exists (mdet (line a h 1) / 2 - mdet (line a h (-1)) / 2 - mdet h).
  apply (der_poly _ _ (mdet a) (mdet (line a h 1) / 2 + mdet (line a h (-1)) / 2 - mdet a) (mdet h)). intros t. un. cbn. field.
Qed.
Lemma madj_line_der a h i j : exists c, is_derive (fun t => madj (line a h t) i j) 0 (c : R).
Proof.
  unfold madj. cbv zeta. set (i1 := Nat.modulo (i + 1) 3). set (i2 := Nat.modulo (i + 2) 3). set (j1 := Nat.modulo (j + 1) 3). set (j2 := Nat.modulo (j + 2) 3).
  clearbody i1 i2 j1 j2. eexists.
  apply (der_poly _ (a j1 i1 * h j2 i2 + h j1 i1 * a j2 i2 - (a j1 i2 * h j2 i1 + h j1 i2 * a j2 i1)) (a j1 i1 * a j2 i2 - a j1 i2 * a j2 i1) (h j1 i1 * h j2 i2 - h j1 i2 * h j2 i1) 0).
  intros t. un. ring.
Qed.
(** along every line through an invertible matrix the inverse exists near 0, and
    its derivative at 0 is - A^-1 H A^-1 *)
Lemma inverse_near a ai h : inverse3 ai a -> exists x : R -> m3, locally 0 (fun t => inverse3 (x t) (line a h t)).
Proof.
  intros [I1 I2]. exists (fun t i j => madj (line a h t) i j / mdet (line a h t)).
  destruct (mdet_line_der a h) as [c C]. assert (K : continuous (fun t => mdet (line a h t)) 0) by (apply (ex_derive_continuous (K := R_AbsRing) (V := R_NormedModule)); exists c; exact C).
  assert (N : mdet (line a h 0) <> 0) by (rewrite (mdet_eq _ _ (line0 a h)); apply (det_nz a ai I1)).
  assert (L : locally 0 (fun t => mdet (line a h t) <> 0)).
  { apply (K (fun y => y <> 0)). exists (mkposreal _ (Rabs_pos_lt _ N)). intros y B Z. change (Rabs (y - mdet (line a h 0)) < Rabs (mdet (line a h 0))) in B.
    rewrite Z, Rminus_0_l, Rabs_Ropp in B. lra. }
  eapply filter_imp; [|exact L]. intros t T. apply inverse_exists. exact T.
Qed.
Theorem inverse_derivative a ai h (x : R -> m3) : inverse3 ai a -> locally 0 (fun t => inverse3 (x t) (line a h t)) ->
  forall i j, (i < 3)%nat -> (j < 3)%nat -> is_derive (fun t => x t i j) 0 (dinv ai h i j : R).
Proof.
  intros [I1 I2] X.
  assert (X0 : eq2 (x 0) ai).
  { destruct (locally_singleton _ _ X) as [Y _]. intros i j Hi Hj. rewrite (right_inverse_val a ai I1) by assumption.
    apply right_inverse_val; try assumption. intros p q Hp Hq. rewrite <- Y by assumption. unfold mmul, sum3. rewrite !line0 by lia. reflexivity. }
  assert (C : forall i j, (i < 3)%nat -> (j < 3)%nat -> continuous (fun t => x t i j) 0).
  { intros i j Hi Hj. apply (continuous_ext_loc _ (fun t => madj (line a h t) i j * / mdet (line a h t))).
    { eapply filter_imp; [|exact X]. cbv beta. intros t [T _]. symmetry. rewrite (right_inverse_val _ _ T) by assumption. reflexivity. }
    destruct (mdet_line_der a h) as [c Hc]. destruct (madj_line_der a h i j) as [c' Hc'].
    assert (N : mdet (line a h 0) <> 0) by (rewrite (mdet_eq _ _ (line0 a h)); apply (det_nz a ai I1)).
    apply cont_mul; apply (ex_derive_continuous (K := R_AbsRing) (V := R_NormedModule)).
    - exists c'. exact Hc'.
    - eexists. apply is_derive_inv; [exact Hc|exact N]. }
  intros i j Hi Hj.
  eapply der_eq; [apply (der_of_factor (fun t => x t i j) (fun t => mscale (-1) (mmul ai (mmul h (x t))) i j))|].
  - eapply filter_imp; [|exact X]. cbv beta. intros t [T _]. rewrite X0 by assumption.
    (* ai (a + t h) x = ai *)
    assert (E : mmul ai (mmul (line a h t) (x t)) i j = mmul (mmul ai a) (x t) i j + t * mmul ai (mmul h (x t)) i j) by (un; ring).
    unfold mmul at 1 3 in E. unfold sum3 in E. rewrite !T, !I2 in E by lia. set (w := mmul ai (mmul h (x t)) i j) in *.
    unfold mscale. fold w. clearbody w. unfold mident, kron in E.
    assert (E1 : ai i j = x t i j + t * w) by (clear - E Hi Hj; idx i; idx j; cbn [Nat.eqb] in E; lra). lra.
  - unfold mscale. apply cont_scal. unfold mmul at 1. apply (cont_sum3 (ai i) (fun t k => mmul h (x t) k j)). intros p Hp.
    unfold mmul. apply (cont_sum3 (h p) (fun t k => x t k j)). intros q Hq. apply C; assumption.
  - cbv beta. unfold dinv, mscale, mmul, sum3. rewrite !X0 by lia. reflexivity.
Qed.
Theorem C65_inverse d0 a ai : t4_rep d0 = General -> inverse3 (tens2 ai) a ->
  exists d, deriv_inverse_tensor d0 ai = Ok d /\ t4_rep d = General /\
  forall h, (exists x : R -> m3, locally 0 (fun t => inverse3 (x t) (line a h t))) /\
    forall x : R -> m3, locally 0 (fun t => inverse3 (x t) (line a h t)) ->
    forall i j, (i < 3)%nat -> (j < 3)%nat -> is_derive (fun t => x t i j) 0 (a4_ddot2 (tens4 d) h i j : R).
Proof.
  intros E V. unfold deriv_inverse_tensor. destruct (C62_transpose ai ai eq_refl) as (at_ & -> & T2 & T3). cbn [bind].
  destruct (C63_t2_odyad_t2 d0 (-1) ai at_ E T2) as (d & D1 & D2 & D3). exists d. split; [exact D1|]. split; [exact D2|]. intros h. split; [apply (inverse_near a (tens2 ai) h V)|].
  intros x X i j Hi Hj. eapply der_eq; [apply (inverse_derivative a (tens2 ai) h x V X); assumption|].
  unfold a4_ddot2, sum3. rewrite !D3 by lia. unfold a4_scale, odyad. rewrite !T3 by lia. unfold dinv. un. ring.
Qed.
Theorem C65_inverse_sym d0 a ai : t4_rep d0 = Symmetric -> rep_symmetric (t2_rep ai) = true -> inverse3 (tens2 ai) a ->
  exists d, deriv_inverse_tensor_sym d0 ai = Ok d /\ t4_rep d = Symmetric /\
  forall h, sym h -> forall x : R -> m3, locally 0 (fun t => inverse3 (x t) (line a h t)) ->
    forall i j, (i < 3)%nat -> (j < 3)%nat -> is_derive (fun t => x t i j) 0 (a4_ddot2 (tens4 d) h i j : R).
Proof.
  intros E S V. unfold deriv_inverse_tensor_sym. rewrite E, S. cbn [rep_eqb assert_ bind].
  destruct (C63_t2_ssd d0 (- (1 / 2)) ai E) as (d & D1 & D2 & D3). exists d. splits; auto.
  intros h H x X i j Hi Hj. eapply der_eq; [apply (inverse_derivative a (tens2 ai) h x V X); assumption|].
  unfold a4_ddot2, sum3. rewrite !D3 by lia. unfold a4_scale, ssd, a4_add, odyad, udyad. pose proof (tens2_sym ai S) as Sa.
  set (b := tens2 ai) in *. clearbody b. clear - Sa H Hi Hj. unfold dinv. un. idx i; idx j; symm; field.
Qed.
(** ** asserted representations *)
Theorem C65_reps d1 s : t2_rep d1 <> t2_rep s ->
  deriv1_norm d1 s = Panic /\ deriv1_invariant_jj2 d1 s = Panic /\ deriv1_invariant_sigma_s d1 s = Panic /\
  deriv1_invariant_sigma_t d1 s = Panic /\ deriv1_invariant_p d1 s = Panic /\ deriv1_invariant_q d1 s = Panic.
Proof.
  intros H. unfold deriv1_norm, deriv1_invariant_jj2, deriv1_invariant_sigma_s, deriv1_invariant_sigma_t, deriv1_invariant_p, deriv1_invariant_q.
  destruct (t2_rep d1), (t2_rep s); try congruence; splits; reflexivity.
Qed.
Example C65_example :
  let s := mkT2 Symmetric (fun m => List.nth m [1; 2; 4; 0; 0; 0] 0) in
  rep_symmetric (t2_rep s) = true /\ / 10 ^ 9 < J2 (tens2 s) /\ 0 < mfrob (tens2 s) /\ aux_lode_ok aux_lode_new /\
  inverse3 (tens2 (mkT2 Symmetric (fun m => List.nth m [1; 1 / 2; 1 / 4; 0; 0; 0] 0))) (tens2 s).
Proof.
  cbn zeta. split; [reflexivity|]. split; [|split; [|split; [apply C65_aux_lode_new|split]]].
  - rewrite <- J2_t. unfold t2_invariant_jj2. tred. lra.
  - unfold mfrob. apply sqrt_lt_R0. unfold mddot, sum3. tens. tred. unfold Rdiv. lra.
  - intros i j Hi Hj. unfold mmul, mident, kron, sum3. tens. idx i; idx j; tred; unfold Rdiv; lra.
  - intros i j Hi Hj. unfold mmul, mident, kron, sum3. tens. idx i; idx j; tred; unfold Rdiv; lra.
Qed.
Print Assumptions C65_lode.
Print Assumptions C65_deriv2_lode.
Print Assumptions C65_inverse.
Print Assumptions C65_squared.
