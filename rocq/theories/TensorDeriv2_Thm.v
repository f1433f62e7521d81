(** C65, continued: second derivatives of the invariants, derivatives of the
    inverse and of the square. *)
From Coq Require Import Reals Lra List.
From Coquelicot Require Import Coquelicot.
From Verif Require Import Base RBase Tensor_Model Tensor4_Model Tensor_Spec Tensor_Lib Tensor_Thm Tensor2_Thm Tensor4_Thm
  TensorMix_Thm TensorMix2_Thm TensorMix3_Thm TensorDeriv_Model TensorDeriv_Spec TensorDeriv_Thm.
Open Scope R_scope.

(** ** matrix level *)
Lemma mdev_eq a b : eq2 a b -> eq2 (mdev a) (mdev b).
Proof. intros E i j Hi Hj. un. rewrite !E by lia. reflexivity. Qed.
Lemma dJ3_eq a b : eq2 a b -> eq2 (dJ3 a) (dJ3 b).
Proof.
  intros E i j Hi Hj. unfold dJ3, msub, mscale. rewrite (J2_eq a b E). f_equal. unfold mmul, sum3. rewrite !(mdev_eq a b E) by lia. reflexivity.
Qed.
Definition posJ2 (a : m3) : Prop := 0 < J2 a.
Lemma hess_J2 a : hessian every J2 a symdev4.
Proof. exists mdev. split; [intros b B _; split; [apply dev_sym|apply grad_J2]; exact B|apply jac_dev]. Qed.
Definition hJ3t (a : m3) : a4 := fun i j k l =>
  a4_ddot4 (a4_scale (1 / 2) (qsd (mdev a) mident)) symdev4 i j k l + - (2 / 3) * a22 mident (mdev a) i j k l.
Lemma hJ3t_val a h : sym a -> sym h -> eq2 (a4_ddot2 (hJ3t a) h) (hJ3 a h).
Proof.
  intros A H. pose proof (dev_sym a A) as S.
  assert (T : mtrace (mdev a) = 0) by (un; cbn [Nat.eqb]; field).
  assert (M : eq2 (a4_ddot2 symdev4 h) (mdev h)).
  { intros i j Hi Hj. unfold symdev4. un. idx i; idx j; cbn [Nat.eqb]; symm; field. }
  intros i j Hi Hj.
  assert (X : a4_ddot2 (hJ3t a) h i j = a4_ddot2 (a4_scale (1 / 2) (qsd (mdev a) mident)) (a4_ddot2 symdev4 h) i j + - (2 / 3) * (mident i j * mddot (mdev a) h)).
  { unfold hJ3t. set (q := a4_scale (1 / 2) (qsd (mdev a) mident)). set (s := symdev4). set (e := mdev a). clearbody q s e.
    unfold a4_ddot2, a4_ddot4, a22, mddot, sum3. ring. }
  rewrite X.
  assert (Y : a4_ddot2 (a4_scale (1 / 2) (qsd (mdev a) mident)) (a4_ddot2 symdev4 h) i j = a4_ddot2 (a4_scale (1 / 2) (qsd (mdev a) mident)) (mdev h) i j).
  { unfold a4_ddot2 at 1 3. apply sum3_ext. intros k Hk. apply sum3_ext. intros l Hl. rewrite M by assumption. reflexivity. }
  rewrite Y. unfold hJ3. pose proof (dev_sym h H) as SH. set (d := mddot (mdev a) h). set (e := mdev a) in *. set (f := mdev h) in *. clearbody d e f.
  clear A H M X Y T. unfold a4_scale, qsd, a4_add, odyad, udyad. un. idx i; idx j; cbn [Nat.eqb]; symm; field.
Qed.
Lemma hess_J3 a : sym a -> hessian every J3 a (hJ3t a).
Proof.
  intros A. exists dJ3. split; [intros b B _; split; [apply dJ3_sym|apply grad_J3]; exact B|].
  intros h H i j Hi Hj. rewrite hJ3t_val by assumption. apply jac_dJ3; assumption.
Qed.
(** k |dev a| = k sqrt(2 J2 a) *)
Definition gfrob (k : R) (a : m3) : m3 := mscale (k / 2 * Rpower (J2 a) (- (1 / 2))) (mdev a).
Lemma sqrt_pow x : 0 < x -> sqrt x = Rpower x (1 / 2).
Proof. intros H. replace (1 / 2) with (/ 2) by lra. symmetry. apply Rpower_sqrt. exact H. Qed.
Lemma hess_sqrtJ2 (f : m3 -> R) (k : R) a : sym a -> 0 < J2 a ->
  (forall b, sym b -> f b = k * sqrt (J2 b)) ->
  hessian posJ2 f a (fun i j k' l => k / 2 * Rpower (J2 a) (- (1 / 2)) * symdev4 i j k' l + - (k / 4 * Rpower (J2 a) (- (3 / 2))) * a22 (mdev a) (mdev a) i j k' l).
Proof.
  intros A P F. exists (gfrob k). split.
  - intros b B Pb. split.
    { intros i j Hi Hj. unfold gfrob, mscale, mtrans. f_equal. apply (dev_sym b B); assumption. }
    intros h H. eapply der_ext; [intros t; apply F; apply sym_line; assumption|].
    eapply der_eq; [apply der_scal, (der_sqrt (fun t => J2 (line b h t))); [apply grad_J2; assumption|rewrite J2_line0; exact Pb]|].
    rewrite J2_line0. unfold gfrob. rewrite <- inv_pow, <- sqrt_pow by exact Pb.
    assert (0 < sqrt (J2 b)) by (apply sqrt_lt_R0; exact Pb). set (w := sqrt (J2 b)) in *. set (e := mdev b). clearbody w e. un. field. lra.
  - intros h H i j Hi Hj. unfold gfrob, mscale at 1.
    eapply der_eq; [apply (der_mul (fun t => k / 2 * Rpower (J2 (line a h t)) (- (1 / 2))) (fun t => mdev (line a h t) i j));
      [apply der_scal, pow_J2; assumption|apply jac_dev; assumption]|].
    cbv beta. rewrite J2_line0. replace (- (1 / 2) - 1) with (- (3 / 2)) by lra.
    rewrite (mdev_eq _ _ (line0 a h)) by assumption.
    set (x := Rpower (J2 a) (- (1 / 2))). set (y := Rpower (J2 a) (- (3 / 2))). set (e := mdev a). set (s := symdev4). clearbody x y e s.
    unfold a4_ddot2, a22, mddot, sum3. field.
Qed.
Definition hlode (a : m3) : a4 := fun i j k l =>
  3 / 2 * sqrt 3 * Rpower (J2 a) (- (3 / 2)) * hJ3t a i j k l
  + - (9 / 4 * sqrt 3 * Rpower (J2 a) (- (5 / 2))) * J3 a * symdev4 i j k l
  + - (9 / 4 * sqrt 3 * Rpower (J2 a) (- (5 / 2))) * a22 (dJ3 a) (mdev a) i j k l
  + - (9 / 4 * sqrt 3 * Rpower (J2 a) (- (5 / 2))) * a22 (mdev a) (dJ3 a) i j k l
  + 45 / 8 * sqrt 3 * Rpower (J2 a) (- (7 / 2)) * J3 a * a22 (mdev a) (mdev a) i j k l.
Lemma hess_lode a : sym a -> 0 < J2 a -> hessian posJ2 lode a (hlode a).
Proof.
  intros A P. exists glode. split.
  - intros b B Pb. split; [|apply grad_lode; assumption]. intros i j Hi Hj. unfold glode, msub, mscale, mtrans. f_equal; f_equal;
      [apply (dJ3_sym b B)|apply (dev_sym b B)]; assumption.
  - intros h H i j Hi Hj. unfold glode, msub, mscale.
    eapply der_eq; [apply der_minus; [apply (der_mul (fun t => 3 / 2 * sqrt 3 * Rpower (J2 (line a h t)) (- (3 / 2))) (fun t => dJ3 (line a h t) i j));
        [apply der_scal, pow_J2; assumption|apply jac_dJ3; assumption]
      |apply (der_mul (fun t => 9 / 4 * sqrt 3 * Rpower (J2 (line a h t)) (- (5 / 2)) * J3 (line a h t)) (fun t => mdev (line a h t) i j));
        [apply (der_mul (fun t => 9 / 4 * sqrt 3 * Rpower (J2 (line a h t)) (- (5 / 2))) (fun t => J3 (line a h t)));
          [apply der_scal, pow_J2; assumption|apply grad_J3; assumption]|apply jac_dev; assumption]]|].
    cbv beta. rewrite J2_line0, J3_line0.
    rewrite (dJ3_eq _ _ (line0 a h)) by assumption.
    rewrite (mdev_eq _ _ (line0 a h)) by assumption.
    rewrite <- hJ3t_val by assumption.
    replace (- (3 / 2) - 1) with (- (5 / 2)) by lra. replace (- (5 / 2) - 1) with (- (7 / 2)) by lra. unfold hlode.
    set (x := Rpower (J2 a) (- (3 / 2))). set (y := Rpower (J2 a) (- (5 / 2))). set (w := Rpower (J2 a) (- (7 / 2))). set (e := mdev a). set (s := symdev4).
    set (d := dJ3 a). set (j3 := J3 a). set (t3 := hJ3t a). set (k3 := sqrt 3). clearbody x y w e s d j3 t3 k3.
    unfold a4_ddot2, a22, mddot, sum3. field.
Qed.
Lemma hessian_eq dom f a b d d' : eq4 d' d -> eq2 a b -> hessian dom f b d -> hessian dom f b d'.
Proof. intros E _ (g & G1 & G2). exists g. split; [exact G1|]. eapply jacobian_eq; [exact E|exact G2]. Qed.
(** ** tensor level *)
Theorem C65_deriv2_jj2 d2 s : t4_rep d2 = Symmetric -> rep_symmetric (t2_rep s) = true ->
  exists d, deriv2_invariant_jj2 d2 s = Ok d /\ t4_rep d = Symmetric /\ eq4 (tens4 d) symdev4 /\ hessian every J2 (tens2 s) (tens4 d).
Proof.
  intros E S. unfold deriv2_invariant_jj2. rewrite S, E. cbn [rep_eqb assert_ bind].
  assert (V : eq4 (tens4 (t4_set_pp_symdev d2)) symdev4).
  { intros i j k l Hi Hj Hk Hl. apply C63_set_pp_symdev; try assumption; rewrite E; discriminate. }
  eexists; split; [reflexivity|]. split; [exact E|].
  match goal with |- eq4 (tens4 ?x) _ /\ _ => assert (W : eq4 (tens4 x) symdev4) end.
  { intros i j k l Hi Hj Hk Hl. rewrite <- V by assumption. unfold t4_set_pp_symdev, t4_dim. rewrite E. reflexivity. }
  split; [exact W|]. eapply hessian_eq; [exact W|intros i j _ _; reflexivity|apply hess_J2].
Qed.
Lemma put_put d x y : t4_put (t4_put d x) y = t4_put d y. Proof. reflexivity. Qed.
Lemma sm_update d mm al o : t4_rep o = t4_rep d ->
  exists m', small_mat_update mm al (t4_mat o) (t4_dim d) = Ok m' /\
    eq4 (tens4 (t4_put d m')) (a4_add (tens4 (t4_put d mm)) (a4_scale al (tens4 o))).
Proof.
  intros E. unfold small_mat_update. unfold t4_dim. rewrite rep_dim_le. cbn [assert_ bind]. eexists; split; [reflexivity|].
  in4. rewrite (tens4_val d _ (fun m n => mm m n + al * t4_mat o m n)); try assumption.
  2: { intros m n Hm Hn. unfold t4_dim in Hm, Hn. rewrite (loop2_eq _ _ _ (fun m n x => x + al * t4_mat o m n)) by reflexivity. rewrite lt2 by assumption. reflexivity. }
  unfold a4_add, a4_scale. rewrite (tens4_val d mm mm) by (try assumption; reflexivity). tens4t. unfold t4_dim. rewrite E, c22_scal, c22_plus. apply c22_ext. intros m n. unfold ext2.
  destruct ((m <? _) && (n <? _))%nat; ring.
Qed.
Lemma sm_mul d mm c o : t4_rep o = t4_rep d -> t4_rep c = t4_rep d ->
  exists m', small_mat_mat_mul mm 1 (t4_mat c) (t4_mat o) 0 (t4_dim d) = Ok m' /\
    eq4 (tens4 (t4_put d m')) (a4_ddot4 (tens4 c) (tens4 o)).
Proof.
  intros E1 E2. destruct (C63_t4_ddot_t4 (t4_put d mm) 1 c o) as (e & A & B & C); [congruence|cbn; congruence|].
  unfold t4_ddot_t4 in A. cbn [t4_put t4_rep t4_mat] in A. revert A. rewrite E1, E2. reps. change (t4_dim (t4_put d mm)) with (t4_dim d).
  destruct (small_mat_mat_mul _ _ _ _ _ _) as [m'| |]; cbn [bind]; try discriminate. intros A. injection A as <-. rewrite put_put in C.
  exists m'. split; [reflexivity|]. in4. rewrite C by assumption. unfold a4_scale. ring.
Qed.
Lemma sm_add d mm al c be o : t4_rep o = t4_rep d -> t4_rep c = t4_rep d ->
  exists m', small_mat_add mm al (t4_mat c) be (t4_mat o) (t4_dim d) = Ok m' /\
    eq4 (tens4 (t4_put d m')) (a4_add (a4_scale al (tens4 c)) (a4_scale be (tens4 o))).
Proof.
  intros E1 E2. destruct (C63_t4_add (t4_put d mm) al c be o) as (e & A & B & C); [congruence|cbn; congruence|].
  unfold t4_add in A. cbn [t4_put t4_rep t4_mat] in A. revert A. rewrite E1, E2. reps. change (t4_dim (t4_put d mm)) with (t4_dim d).
  destruct (small_mat_add _ _ _ _ _ _) as [m'| |]; cbn [bind]; try discriminate. intros A. injection A as <-. rewrite put_put in C.
  exists m'. split; [reflexivity|]. exact C.
Qed.
(** what the auxiliary structure of the J3 derivative must hold: its constants *)
Definition aux_jj3_ok (x : aux_jj3) : Prop :=
  t2_rep (aj_s x) = Symmetric /\ t2_rep (aj_ii x) = Symmetric /\ eq2 (tens2 (aj_ii x)) mident /\
  t4_rep (aj_psd x) = Symmetric /\ eq4 (tens4 (aj_psd x)) symdev4 /\ t4_rep (aj_aa x) = Symmetric /\ t4_rep (aj_bb x) = Symmetric.
Theorem C65_aux_new : aux_jj3_ok aux_jj3_new.
Proof.
  unfold aux_jj3_ok. splits; try reflexivity.
  - cbn [aux_jj3_new aj_ii]. apply (proj2 (proj2 (C61_clear_new_identity (t2_new Symmetric) Symmetric))).
  - cbn [aux_jj3_new aj_psd]. apply (C63_constants true).
Qed.
(** the 3D version of a 2D tensor, or the tensor itself *)
Lemma as3d s : rep_symmetric (t2_rep s) = true ->
  exists s3, (if rep_eqb (t2_rep s) Symmetric2D then t2_sym2d_as_symmetric s else Ok s) = Ok s3 /\ t2_rep s3 = Symmetric /\ eq2 (tens2 s3) (tens2 s).
Proof.
  intros S. destruct (t2_rep s) eqn:E; cbn in S; try discriminate; cbn [rep_eqb].
  - exists s. splits; auto. intros i j _ _; reflexivity.
  - destruct (C61_sym2d_as_symmetric s E) as (s3 & A & B & C). exists s3. splits; auto.
Qed.
Theorem C65_deriv2_jj3 d2 x s : t4_rep d2 = Symmetric -> rep_symmetric (t2_rep s) = true -> aux_jj3_ok x ->
  exists d x', deriv2_invariant_jj3 d2 x s = Ok (d, x') /\ t4_rep d = Symmetric /\ aux_jj3_ok x' /\
    eq4 (tens4 d) (hJ3t (tens2 s)) /\ hessian every J3 (tens2 s) (tens4 d).
Proof.
  intros E S (X1 & X2 & X3 & X4 & X5 & X6 & X7). unfold deriv2_invariant_jj3. rewrite E, S. cbn [rep_eqb assert_ bind].
  destruct (as3d s S) as (s3 & A1 & A2 & A3).
  assert (D : exists sd, (if rep_eqb (t2_rep s) Symmetric2D then sig3d <- t2_sym2d_as_symmetric s;; t2_deviator sig3d (aj_s x) else t2_deviator s (aj_s x)) = Ok sd
     /\ t2_rep sd = Symmetric /\ eq2 (tens2 sd) (mdev (tens2 s))).
  { destruct (C62_deviator s3 (aj_s x)) as (sd & B1 & B2 & B3 & _); [congruence|]. exists sd. splits; [|congruence|].
    - destruct (rep_eqb (t2_rep s) Symmetric2D); [rewrite A1; exact B1|]. injection A1 as ->. exact B1.
    - intros i j Hi Hj. rewrite B3 by assumption. apply mdev_eq; assumption. }
  destruct D as (sd & -> & D2 & D3). cbn [bind].
  destruct (C63_t2_qsd_t2 (mkT4 (t4_rep (aj_aa x)) (t4_mat (aj_aa x)) (t4_use_loops d2)) (1 / 2) sd (aj_ii x)) as (aa & -> & P2 & P3); [exact X6|congruence|]. cbn [bind].
  destruct (C63_t2_dyad_t2 (aj_bb x) (- TWO_BY_3) (aj_ii x) sd) as (bb & -> & Q2 & Q3); [congruence|congruence|]. cbn [bind].
  destruct (sm_mul d2 (t4_mat d2) aa (aj_psd x)) as (m1 & -> & M1); [congruence|congruence|]. cbn [bind].
  destruct (sm_update d2 m1 1 bb) as (m2 & -> & M2); [congruence|]. cbn [bind].
  assert (V : eq4 (tens4 (t4_put d2 m2)) (hJ3t (tens2 s))).
  { in4. rewrite M2 by assumption. unfold a4_add, a4_scale, hJ3t. rewrite M1, Q3 by assumption. unfold a4_scale, a22. rewrite X3, D3 by assumption.
    unfold TWO_BY_3. f_equal; [|ring]. unfold a4_ddot4. apply sum3_ext. intros p Hp. apply sum3_ext. intros q Hq. rewrite P3, X5 by assumption. f_equal.
    unfold a4_scale, qsd, a4_add, odyad, udyad. rewrite !X3, !D3 by assumption. reflexivity. }
  do 2 eexists. split; [reflexivity|]. split; [exact E|]. split.
  - unfold aux_jj3_ok. cbn [aj_s aj_ii aj_psd aj_aa aj_bb]. splits; auto; congruence.
  - split; [exact V|]. eapply hessian_eq; [exact V|intros i j _ _; reflexivity|apply hess_J3, tens2_sym, S].
Qed.
Theorem C65_deriv2_c c d2 x s : t4_rep d2 = Symmetric -> rep_symmetric (t2_rep s) = true ->
  t2_rep (as_d1_jj2 x) = Symmetric -> t4_rep (as_d2_jj2 x) = Symmetric ->
  (/ 10 ^ 9 < J2 (tens2 s) /\ exists d x', deriv2_invariant_c c d2 x s = Ok (d, x', Some (J2 (tens2 s))) /\ t4_rep d = Symmetric /\
     t2_rep (as_d1_jj2 x') = Symmetric /\ t4_rep (as_d2_jj2 x') = Symmetric /\
     forall f, (forall b, sym b -> f b = c * sqrt (J2 b)) -> hessian posJ2 f (tens2 s) (tens4 d)) \/
  (J2 (tens2 s) <= / 10 ^ 9 /\ deriv2_invariant_c c d2 x s = Ok (d2, x, None)).
Proof.
  intros E S X1 X2. unfold deriv2_invariant_c. rewrite S, E. cbn [rep_eqb assert_ bind]. jj2t s.
  split; [unfold TOL_J2 in T; lra|]. pose proof tol_pos.
  destruct (as3d s S) as (s3 & -> & A2 & A3). cbn [bind].
  assert (S3 : rep_symmetric (t2_rep s3) = true) by (rewrite A2; reflexivity).
  destruct (C65_jj2 (as_d1_jj2 x) s3 S3) as (d1 & -> & B2 & B3 & _); [congruence|]. cbn [bind].
  destruct (C65_deriv2_jj2 (as_d2_jj2 x) s3 X2 S3) as (dd & -> & C2 & C3 & _). cbn [bind].
  set (b := 1 / 4 * c / Rpower (J2 (tens2 s)) (3 / 2)).
  destruct (C63_t2_dyad_t2 d2 (- b) d1 d1) as (d2' & -> & F2 & F3); [congruence|congruence|]. cbn [bind].
  set (a := 1 / 2 * c / Rpower (J2 (tens2 s)) (1 / 2)).
  destruct (sm_update d2' (t4_mat d2') a dd) as (m & -> & M); [congruence|]. cbn [bind].
  do 2 eexists. split; [reflexivity|]. cbn [as_d1_jj2 as_d2_jj2 t4_put t4_rep]. splits; try congruence.
  intros f Hf. eapply hessian_eq; [|intros i j _ _; reflexivity|apply (hess_sqrtJ2 f c); [apply tens2_sym, S|lra|exact Hf]].
  change (mkT4 (t4_rep d2') m (t4_use_loops d2')) with (t4_put d2' m).
  in4. rewrite M by assumption. unfold a4_add, a4_scale. replace (t4_put d2' (t4_mat d2')) with d2' by (destruct d2'; reflexivity).
  rewrite F3, C3 by assumption. unfold a4_scale, a22. rewrite !B3, !(mdev_eq _ _ A3) by assumption. unfold a, b. rewrite <- !inv_pow.
  set (u := Rpower (J2 (tens2 s)) (1 / 2)). set (v := Rpower (J2 (tens2 s)) (3 / 2)). unfold Rdiv. ring.
Qed.
Theorem C65_deriv2_sigma_t d2 x s : t4_rep d2 = Symmetric -> rep_symmetric (t2_rep s) = true ->
  t2_rep (as_d1_jj2 x) = Symmetric -> t4_rep (as_d2_jj2 x) = Symmetric ->
  (/ 10 ^ 9 < J2 (tens2 s) /\ exists d x', deriv2_invariant_sigma_t d2 x s = Ok (d, x', Some (J2 (tens2 s))) /\ t4_rep d = Symmetric /\
     t2_rep (as_d1_jj2 x') = Symmetric /\ t4_rep (as_d2_jj2 x') = Symmetric /\
     hessian posJ2 (fun b => mfrob (mdev b)) (tens2 s) (tens4 d)) \/
  (J2 (tens2 s) <= / 10 ^ 9 /\ deriv2_invariant_sigma_t d2 x s = Ok (d2, x, None)).
Proof.
  intros E S X1 X2. unfold deriv2_invariant_sigma_t. destruct (C65_deriv2_c SQRT_2 d2 x s E S X1 X2) as [(T & d & x' & A1 & A2 & A3 & A4 & A5)|H]; [left|right; exact H].
  split; [exact T|]. exists d, x'. splits; auto. apply A5. intros b B. rewrite frob_dev_J2 by exact B. unfold SQRT_2.
  rewrite J2_pos by exact B. apply sqrt_mult; [lra|]. apply Rmult_le_pos; [|lra]. unfold mddot, sum3.
  repeat apply Rplus_le_le_0_compat; apply Rle_0_sqr.
Qed.
Theorem C65_deriv2_q d2 x s : t4_rep d2 = Symmetric -> rep_symmetric (t2_rep s) = true ->
  t2_rep (as_d1_jj2 x) = Symmetric -> t4_rep (as_d2_jj2 x) = Symmetric ->
  (/ 10 ^ 9 < J2 (tens2 s) /\ exists d x', deriv2_invariant_q d2 x s = Ok (d, x', Some (J2 (tens2 s))) /\ t4_rep d = Symmetric /\
     t2_rep (as_d1_jj2 x') = Symmetric /\ t4_rep (as_d2_jj2 x') = Symmetric /\
     hessian posJ2 (fun b => sqrt (3 / 2) * mfrob (mdev b)) (tens2 s) (tens4 d)) \/
  (J2 (tens2 s) <= / 10 ^ 9 /\ deriv2_invariant_q d2 x s = Ok (d2, x, None)).
Proof.
  intros E S X1 X2. unfold deriv2_invariant_q. destruct (C65_deriv2_c SQRT_3 d2 x s E S X1 X2) as [(T & d & x' & A1 & A2 & A3 & A4 & A5)|H]; [left|right; exact H].
  split; [exact T|]. exists d, x'. splits; auto. apply A5. intros b B. rewrite frob_dev_J2 by exact B. unfold SQRT_3.
  assert (0 <= J2 b). { rewrite J2_pos by exact B. apply Rmult_le_pos; [|lra]. unfold mddot, sum3. repeat apply Rplus_le_le_0_compat; apply Rle_0_sqr. }
  rewrite <- !sqrt_mult by lra. f_equal. field.
Qed.
Definition aux_lode_ok (x : aux_lode) : Prop :=
  aux_jj3_ok (al_jj3 x) /\ t2_rep (al_s x) = Symmetric /\ t2_rep (al_d1_jj2 x) = Symmetric /\ t2_rep (al_d1_jj3 x) = Symmetric /\
  t4_rep (al_d2_jj2 x) = Symmetric /\ t4_rep (al_d2_jj3 x) = Symmetric /\ t4_rep (al_22 x) = Symmetric /\ t4_rep (al_23 x) = Symmetric /\ t4_rep (al_32 x) = Symmetric.
Theorem C65_aux_lode_new : aux_lode_ok aux_lode_new.
Proof. split; [apply C65_aux_new|]. splits; reflexivity. Qed.
Theorem C65_deriv2_lode d2 x s : t4_rep d2 = Symmetric -> rep_symmetric (t2_rep s) = true -> aux_lode_ok x ->
  (/ 10 ^ 9 < J2 (tens2 s) /\ exists d x', deriv2_invariant_lode d2 x s = Ok (d, x', Some (J2 (tens2 s))) /\ t4_rep d = Symmetric /\
     aux_lode_ok x' /\ hessian posJ2 lode (tens2 s) (tens4 d)) \/
  (J2 (tens2 s) <= / 10 ^ 9 /\ deriv2_invariant_lode d2 x s = Ok (d2, x, None)).
Proof.
  intros E S (X0 & X1 & X2 & X3 & X4 & X5 & X6 & X7 & X8). unfold deriv2_invariant_lode. rewrite S, E. cbn [rep_eqb assert_ bind]. jj2t s.
  split; [unfold TOL_J2 in T; lra|]. pose proof tol_pos.
  destruct (as3d s S) as (s3 & -> & A2 & A3). cbn [bind].
  assert (S3 : rep_symmetric (t2_rep s3) = true) by (rewrite A2; reflexivity).
  destruct (C65_jj2 (al_d1_jj2 x) s3 S3) as (d1 & -> & B2 & B3 & _); [congruence|]. cbn [bind].
  destruct (C65_jj3 (al_d1_jj3 x) (al_s x) s3 S3) as (e1 & s1 & -> & G2 & G2' & G3 & _ & _); [congruence|congruence|]. cbn [bind].
  destruct (C65_deriv2_jj2 (al_d2_jj2 x) s3 X4 S3) as (dd & -> & C2 & C3 & _). cbn [bind].
  destruct (C65_deriv2_jj3 (mkT4 (t4_rep (al_d2_jj3 x)) (t4_mat (al_d2_jj3 x)) (t4_use_loops d2)) (al_jj3 x) s3 X5 S3 X0) as (ee & aj & -> & K2 & K3 & K4 & _). cbn [bind].
  destruct (C63_t2_dyad_t2 (al_22 x) 1 d1 d1) as (x22 & -> & P2 & P3); [congruence|congruence|]. cbn [bind].
  destruct (C63_t2_dyad_t2 (al_23 x) 1 d1 e1) as (x23 & -> & Q2 & Q3); [congruence|congruence|]. cbn [bind].
  destruct (C63_t2_dyad_t2 (al_32 x) 1 e1 d1) as (x32 & -> & R2 & R3); [congruence|congruence|]. cbn [bind].
  set (a := 3 / 2 * SQRT_3 / Rpower (J2 (tens2 s)) (3 / 2)). set (b := 9 / 4 * SQRT_3 / Rpower (J2 (tens2 s)) (5 / 2)).
  set (c := 45 / 8 * SQRT_3 / Rpower (J2 (tens2 s)) (7 / 2)). set (j3 := J3 (tens2 s)).
  destruct (sm_add d2 (t4_mat d2) a ee (- b * j3) dd) as (m0 & -> & M0); [congruence|congruence|]. cbn [bind].
  destruct (sm_update d2 m0 (- b) x32) as (m1 & -> & M1); [congruence|]. cbn [bind].
  destruct (sm_update d2 m1 (- b) x23) as (m2 & -> & M2); [congruence|]. cbn [bind].
  destruct (sm_update d2 m2 (c * j3) x22) as (m & -> & M); [congruence|]. cbn [bind].
  do 2 eexists. split; [reflexivity|]. split; [exact E|]. split.
  { unfold aux_lode_ok. cbn [al_jj3 al_s al_d1_jj2 al_d1_jj3 al_d2_jj2 al_d2_jj3 al_22 al_23 al_32]. split; [exact K3|]. splits; congruence. }
  eapply hessian_eq; [|intros i j _ _; reflexivity|apply hess_lode; [apply tens2_sym, S|lra]].
  in4. rewrite M by assumption. unfold a4_add at 1. rewrite M2 by assumption. unfold a4_add at 1. rewrite M1 by assumption. unfold a4_add at 1. rewrite M0 by assumption.
  unfold a4_add, a4_scale. rewrite P3, Q3, R3, C3, K4 by assumption. unfold hlode, a4_scale, a22. rewrite !B3, !G3 by assumption.
  rewrite !(mdev_eq _ _ A3), !(dJ3_eq _ _ A3) by assumption.
  replace (hJ3t (tens2 s3) i j k l) with (hJ3t (tens2 s) i j k l).
  2: { unfold hJ3t, a4_ddot4, a4_scale, qsd, a4_add, odyad, udyad, a22, sum3. rewrite !(mdev_eq _ _ A3) by lia. reflexivity. }
  unfold a, b, c. fold SQRT_3. fold j3. rewrite <- !inv_pow. set (w := hJ3t (tens2 s) i j k l). unfold Rdiv. ring.
Qed.
