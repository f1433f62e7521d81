(** C63, continued: the rank-one update, the products with vectors, the dyadic
    product of vectors and the constant tensors of tensor4.rs. *)
From Coq Require Import Reals Lra List FunctionalExtensionality.
From Verif Require Import Base RBase Tensor_Model Tensor4_Model Tensor_Spec Tensor_Lib Tensor_Thm Tensor2_Thm Tensor4_Thm TensorMix_Thm.
Import ListNotations.
Open Scope R_scope.

(** ** D := alpha D + beta (D : a) (x) (b : D) *)
Lemma loop_acc p q (f : nat -> nat -> R) m n mm :
  loop p (fun a mm => loop q (fun b mm => wr2 mm m n (mm m n + f a b)) mm) mm
  = wr2 mm m n (mm m n + summ p (fun a => summ q (fun b => f a b))).
Proof.
  assert (I : forall q g mm, loop q (fun b mm => wr2 mm m n (mm m n + g b)) mm = wr2 mm m n (mm m n + summ q g)).
  { clear. induction q; intros g mm.
    - unfold loop, wr2. cbn. apply functional_extensionality. intros a. apply functional_extensionality. intros b.
      destruct (Nat.eqb_spec a m) as [->|]; cbn [andb]; [|reflexivity]. destruct (Nat.eqb_spec b n) as [->|]; [ring|reflexivity].
    - rewrite loop_S, IHq. cbn [summ]. unfold wr2. apply functional_extensionality. intros a. apply functional_extensionality. intros b.
      rewrite !Nat.eqb_refl. cbn [andb]. destruct ((a =? m) && (b =? n))%nat; [ring|reflexivity]. }
  induction p.
  - unfold loop, wr2. cbn. apply functional_extensionality. intros a. apply functional_extensionality. intros b.
    destruct (Nat.eqb_spec a m) as [->|]; cbn [andb]; [|reflexivity]. destruct (Nat.eqb_spec b n) as [->|]; [ring|reflexivity].
  - rewrite loop_S, IHp, (I q (f p)). cbn [summ]. change (fun b => f p b) with (f p). unfold wr2. apply functional_extensionality. intros a. apply functional_extensionality. intros b.
    rewrite !Nat.eqb_refl. cbn [andb]. destruct ((a =? m) && (b =? n))%nat; [ring|reflexivity].
Qed.
Theorem C63_t4_ddot_t2_dyad_t2_ddot_t4 e alpha d beta a b : t2_rep a = t4_rep d -> t2_rep b = t4_rep d -> t4_rep e = t4_rep d ->
  exists e', t4_ddot_t2_dyad_t2_ddot_t4 e alpha d beta a b = Ok e' /\ t4_rep e' = t4_rep d /\
    eq4 (tens4 e') (a4_add (a4_scale alpha (tens4 d))
      (a4_scale beta (a22 (a4_ddot2 (tens4 d) (tens2 a)) (a2_ddot4 (tens2 b) (tens4 d))))).
Proof.
  intros E1 E2 E3. unfold t4_ddot_t2_dyad_t2_ddot_t4. rewrite E1, E2, E3. reps. eexists; split; [reflexivity|]. split; [exact E3|].
  set (F := fun m n => alpha * t4_mat d m n + beta * summ (t4_dim d) (fun p => t4_mat d m p * t2_vec a p) * summ (t4_dim d) (fun q => t2_vec b q * t4_mat d q n)).
  in4. rewrite (tens4_val e _ F); try assumption.
  2: { intros m n Hm Hn. rewrite (loop2_eq _ _ _ (fun m n _ => F m n)).
       2: { intros m' n' mm. rewrite loop_acc. unfold wr2. apply functional_extensionality. intros x. apply functional_extensionality. intros y.
            rewrite !Nat.eqb_refl. cbn [andb]. destruct ((x =? m') && (y =? n'))%nat; [|reflexivity].
            unfold F. f_equal. unfold t2_dim. rewrite E1. fold (t4_dim d).
            rewrite Rmult_assoc, (Rmult_comm (summ _ _) (summ _ _)), <- summ_scal, <- summ_scal. apply summ_ext_eq. intros p Hp.
            rewrite (Rmult_comm (summ _ _)), <- Rmult_assoc, <- summ_scal. apply summ_ext_eq. intros q Hq. ring. }
       unfold t2_dim. rewrite E1. unfold t4_dim in Hm, Hn. rewrite E3 in Hm, Hn. rewrite lt2 by assumption. reflexivity. }
  unfold a4_add, a4_scale, a22. rewrite ddot2_c2, ddot2l_c2 by assumption. tens4t. unfold t4_dim. rewrite E3.
  rewrite (Rmult_comm (c2 i j (ext _ _))), !c2_scal, c2_plus. apply c2_ext. intros m Hm.
  rewrite (Rmult_comm (c2 k l (ext _ _))), <- Rmult_assoc, !c2_scal, c2_plus. apply c2_ext. intros n Hn. unfold ext, ext2, F, t4_dim.
  destruct (m <? _)%nat, (n <? _)%nat; cbn [andb]; ring.
Qed.

(** ** second-order products *)
Theorem C63_t2_dot_t2 c a b : t2_rep c = General -> t2_rep b = t2_rep a ->
  exists c', t2_dot_t2 c a b = Ok c' /\ t2_rep c' = General /\ eq2 (tens2 c') (mmul (tens2 a) (tens2 b)).
Proof.
  destruct c as [r w], a as [ra u], b as [rb v]. cbn [t2_rep]. intros -> ->.
  destruct ra; (eexists; split; [reflexivity|]); (split; [reflexivity|]); done2.
Qed.
Theorem C63_t2_dot_t1 v alpha a u i : (i < 3)%nat ->
  t2_dot_t1 v alpha a u i = alpha * sum3 (fun j => tens2 a i j * u j).
Proof. intros Hi. unfold t2_dot_t1. rewrite !gs_tens by lia. idx i; reflexivity. Qed.
Theorem C63_t1_dot_t2 v alpha u a i : (i < 3)%nat ->
  t1_dot_t2 v alpha u a i = alpha * sum3 (fun j => u j * tens2 a j i).
Proof. intros Hi. unfold t1_dot_t2. rewrite !gs_tens by lia. idx i; reflexivity. Qed.
Definition vdyad (u w : nat -> R) : m3 := fun i j => u i * w j.
(** for the 3D representations the dyadic product is exact, and an error is
    returned exactly when the result is not symmetric *)
Theorem C63_t1_dyad_t1_general a alpha u w : t2_rep a = General ->
  exists a', t1_dyad_t1 a alpha u w = (a', Ok tt) /\ t2_rep a' = General /\ eq2 (tens2 a') (mscale alpha (vdyad u w)).
Proof.
  destruct a as [r v]. cbn [t2_rep]. intros ->. eexists; split; [reflexivity|]. split; [reflexivity|].
  unfold vdyad. done2.
Qed.
Theorem C63_t1_dyad_t1_symmetric a alpha u w : t2_rep a = Symmetric ->
  (eq2 (mtrans (vdyad u w)) (vdyad u w) /\
   exists a', t1_dyad_t1 a alpha u w = (a', Ok tt) /\ t2_rep a' = Symmetric /\ eq2 (tens2 a') (mscale alpha (vdyad u w))) \/
  (~ eq2 (mtrans (vdyad u w)) (vdyad u w) /\ exists a' e, t1_dyad_t1 a alpha u w = (a', Err e)).
Proof.
  destruct a as [r v]. cbn [t2_rep]. intros ->. unfold t1_dyad_t1. cbn [t2_dim t2_rep rep_dim Nat.eqb].
  destruct (Reqb_dec (u 0%nat * w 1%nat) (u 1%nat * w 0%nat)) as [[-> A]|[-> A]]; cbn [negb orb].
  2: { right. split; [|eauto]. intros H. specialize (H 0%nat 1%nat ltac:(lia) ltac:(lia)). unfold mtrans, vdyad in H. lra. }
  destruct (Reqb_dec (u 1%nat * w 2%nat) (u 2%nat * w 1%nat)) as [[-> B]|[-> B]]; cbn [negb orb].
  2: { right. split; [|eauto]. intros H. specialize (H 1%nat 2%nat ltac:(lia) ltac:(lia)). unfold mtrans, vdyad in H. lra. }
  destruct (Reqb_dec (u 0%nat * w 2%nat) (u 2%nat * w 0%nat)) as [[-> C]|[-> C]]; cbn [negb orb].
  2: { right. split; [|eauto]. intros H. specialize (H 0%nat 2%nat ltac:(lia) ltac:(lia)). unfold mtrans, vdyad in H. lra. }
  left. split.
  { intros i j Hi Hj. unfold mtrans, vdyad. idx i; idx j; lra. }
  eexists; split; [reflexivity|]. split; [reflexivity|].
  intros i j Hi Hj. unfold mscale, vdyad. tens. idx i; idx j; tred; rewrite ?Rmult_assoc, ?A, ?B, ?C, <- ?Rmult_assoc; kfield.
Qed.
(** for the 2D representation only the in-plane products are formed: the result
    is the dyadic product when both third components vanish *)
Theorem C63_t1_dyad_t1_2d a alpha u w : t2_rep a = Symmetric2D -> u 2%nat = 0 -> w 2%nat = 0 ->
  (eq2 (mtrans (vdyad u w)) (vdyad u w) /\
   exists a', t1_dyad_t1 a alpha u w = (a', Ok tt) /\ t2_rep a' = Symmetric2D /\ eq2 (tens2 a') (mscale alpha (vdyad u w))) \/
  (~ eq2 (mtrans (vdyad u w)) (vdyad u w) /\ exists e, t1_dyad_t1 a alpha u w = (a, Err e)).
Proof.
  destruct a as [r v]. cbn [t2_rep]. intros -> U W. unfold t1_dyad_t1. cbn [t2_dim t2_rep rep_dim Nat.eqb].
  destruct (Reqb_dec (u 0%nat * w 1%nat) (u 1%nat * w 0%nat)) as [[-> A]|[-> A]]; cbn [negb orb].
  2: { right. split; [|eauto]. intros H. specialize (H 0%nat 1%nat ltac:(lia) ltac:(lia)). unfold mtrans, vdyad in H. lra. }
  left. split.
  { intros i j Hi Hj. unfold mtrans, vdyad. idx i; idx j; rewrite ?U, ?W; lra. }
  eexists; split; [reflexivity|]. split; [reflexivity|].
  intros i j Hi Hj. unfold mscale, vdyad. tens. idx i; idx j; tred; rewrite ?U, ?W; rewrite ?Rmult_assoc, ?A, <- ?Rmult_assoc; kfield.
Qed.
Theorem C63_t1_dyad_t1_2d_refuted :
  exists a u w a', t2_rep a = Symmetric2D /\ t1_dyad_t1 a 1 u w = (a', Ok tt) /\
    vdyad u w 2%nat 2%nat = 1 /\ tens2 a' 2%nat 2%nat = 0.
Proof.
  exists (t2_new Symmetric2D), (fun i => if (i =? 2)%nat then 1 else 0), (fun i => if (i =? 2)%nat then 1 else 0).
  unfold t1_dyad_t1. cbn [t2_dim t2_new t2_rep rep_dim Nat.eqb].
  replace (Reqb (0 * 0) (0 * 0)) with true by (symmetry; apply Reqb_true; reflexivity). cbn [negb].
  eexists. split; [reflexivity|]. split; [reflexivity|]. split; [unfold vdyad; cbn; ring|]. tens. tred. reflexivity.
Qed.

(** ** constant tensors *)
Theorem C63_constants red :
  eq4 (tens4 t4_constant_ii) (fun i j k l => kron i k * kron j l) /\
  eq4 (tens4 t4_constant_tt) (fun i j k l => kron i l * kron j k) /\
  eq4 (tens4 (t4_constant_jj red)) (fun i j k l => kron i j * kron k l) /\
  eq4 (tens4 (t4_constant_pp_iso red)) (fun i j k l => kron i j * kron k l / 3) /\
  eq4 (tens4 (t4_constant_pp_sym red)) (fun i j k l => (kron i k * kron j l + kron i l * kron j k) / 2) /\
  eq4 (tens4 t4_constant_pp_skew) (fun i j k l => (kron i k * kron j l - kron i l * kron j k) / 2) /\
  eq4 (tens4 t4_constant_pp_dev) (fun i j k l => kron i k * kron j l - kron i j * kron k l / 3) /\
  eq4 (tens4 (t4_constant_pp_symdev red)) (fun i j k l => (kron i k * kron j l + kron i l * kron j k) / 2 - kron i j * kron k l / 3).
Proof.
  repeat split; destruct red; intros i j k l Hi Hj Hk Hl; unfold kron; tens4t;
    unfold t4_constant_ii, t4_constant_tt, t4_constant_jj, t4_constant_pp_iso, t4_constant_pp_sym, t4_constant_pp_skew, t4_constant_pp_dev, t4_constant_pp_symdev, t4_new;
    idx i; idx j; idx k; idx l; tred; unfold ONE_BY_3, TWO_BY_3; kfield.
Qed.
(** what the projections do to a tensor *)
Theorem C63_projections a :
  eq2 (a4_ddot2 (fun i j k l => (kron i k * kron j l + kron i l * kron j k) / 2) a) (mscale (/ 2) (madd a (mtrans a))) /\
  eq2 (a4_ddot2 (fun i j k l => (kron i k * kron j l - kron i l * kron j k) / 2) a) (mscale (/ 2) (msub a (mtrans a))) /\
  eq2 (a4_ddot2 (fun i j k l => kron i k * kron j l - kron i j * kron k l / 3) a) (mdev a) /\
  eq2 (a4_ddot2 (fun i j k l => kron i j * kron k l / 3) a) (mscale (mtrace a / 3) mident).
Proof.
  repeat split; intros i j Hi Hj; unfold a4_ddot2; sums; idx i; idx j; cbn [Nat.eqb]; field.
Qed.
Theorem C63_set_pp_symdev d : t4_rep d <> General ->
  t4_rep (t4_set_pp_symdev d) = t4_rep d /\
  forall i j k l, (i < 3)%nat -> (j < 3)%nat -> (k < 3)%nat -> (l < 3)%nat ->
    (t4_rep d = Symmetric2D -> in_plane i j /\ in_plane k l) ->
    tens4 (t4_set_pp_symdev d) i j k l = (kron i k * kron j l + kron i l * kron j k) / 2 - kron i j * kron k l / 3.
Proof.
  intros H. split; [reflexivity|]. intros i j k l Hi Hj Hk Hl P. unfold kron. tens4t.
  destruct d as [r mm ul]. cbn [t4_rep] in *. unfold in_plane in P. unfold t4_set_pp_symdev, ONE_BY_3, TWO_BY_3.
  destruct r; [congruence| |].
  - clear P. idx i; idx j; idx k; idx l; tred; kfield.
  - specialize (P eq_refl). idx i; idx j; try (exfalso; lia); idx k; idx l; try (exfalso; lia); tred; kfield.
Qed.
(** ** setting one component of a minor-symmetric tensor sets its images under
    the minor symmetries and nothing else *)
Definition same_pair (i j p q : nat) : bool := ((i =? p) && (j =? q) || (i =? q) && (j =? p))%nat.
Definition wgt (m : nat) : R := if (m <? 3)%nat then 1 else / SQRT_2.
Theorem C63_t4_sym_set_std d p q r s x : t4_rep d <> General ->
  (p < 3)%nat -> (q < 3)%nat -> (r < 3)%nat -> (s < 3)%nat ->
  (t4_rep d = Symmetric2D -> in_plane p q /\ in_plane r s) ->
  exists d', t4_sym_set_std d p q r s x = Ok d' /\ t4_rep d' = t4_rep d /\
    eq4 (tens4 d') (fun i j k l => if (same_pair i j p q && same_pair k l r s)%bool then x else tens4 d i j k l).
Proof.
  intros H Hp Hq Hr Hs P. unfold in_plane in P.
  assert (M : forall i j, (i < 3)%nat -> (j < 3)%nat -> (IJ_TO_M_SYM i j < 6)%nat) by (intros i j Hi Hj; idx i; idx j; cbn; lia).
  assert (S : forall i j k l, (i < 3)%nat -> (j < 3)%nat -> (k < 3)%nat -> (l < 3)%nat ->
     same_pair i j k l = (IJ_TO_M_SYM i j =? IJ_TO_M_SYM k l)%nat)
    by (intros i j k l Hi Hj Hk Hl; idx i; idx j; idx k; idx l; reflexivity).
  assert (D2 : t4_rep d = Symmetric2D -> (IJ_TO_M_SYM p q < 4)%nat /\ (IJ_TO_M_SYM r s < 4)%nat).
  { intros E. specialize (P E). split.
    - destruct P as [P _]. idx p; idx q; cbn; lia.
    - destruct P as [_ P]. idx r; idx s; cbn; lia. }
  assert (T : IJKL_TO_MN_SYM p q r s = (IJ_TO_M_SYM p q, IJ_TO_M_SYM r s)) by (idx p; idx q; idx r; idx s; reflexivity).
  assert (W : forall d i j k l, t4_rep d <> General -> (i < 3)%nat -> (j < 3)%nat -> (k < 3)%nat -> (l < 3)%nat ->
    tens4 d i j k l = if ((IJ_TO_M_SYM i j <? t4_dim d) && (IJ_TO_M_SYM k l <? t4_dim d))%nat
                      then t4_mat d (IJ_TO_M_SYM i j) (IJ_TO_M_SYM k l) * wgt (IJ_TO_M_SYM i j) * wgt (IJ_TO_M_SYM k l) else 0).
  { clear. intros [rp mm ul] i j k l H Hi Hj Hk Hl. tens4t. unfold t4_dim, wgt. cbn [t4_rep t4_mat] in *.
    destruct rp; [congruence| |]; idx i; idx j; idx k; idx l; tred; kfield; apply Rgt_not_eq; exact sq2_pos. }
  unfold t4_sym_set_std. rewrite T.
  destruct d as [rp mm ul]. cbn [t4_rep] in *.
  assert (G : negb (rep_eqb rp General) = true) by (destruct rp; [congruence|reflexivity|reflexivity]). rewrite G. cbn [assert_ bind].
  apply Nat.ltb_lt in Hp as Bp. apply Nat.ltb_lt in Hq as Bq. apply Nat.ltb_lt in Hr as Br. apply Nat.ltb_lt in Hs as Bs.
  rewrite Bp, Bq, Br, Bs. cbn [andb negb].
  eexists; split; [reflexivity|]. split; [reflexivity|].
  intros i j k l Hi Hj Hk Hl. rewrite !S by assumption.
  rewrite !W by (assumption || congruence). unfold t4_dim, t4_put. cbn [t4_rep t4_mat].
  pose proof (M p q Hp Hq) as M1. pose proof (M r s Hr Hs) as M2. pose proof (M i j Hi Hj) as M3. pose proof (M k l Hk Hl) as M4.
  assert (D3 : (IJ_TO_M_SYM p q < rep_dim rp)%nat /\ (IJ_TO_M_SYM r s < rep_dim rp)%nat) by (destruct rp; [congruence|cbn [rep_dim]; lia|cbn [rep_dim]; apply D2; reflexivity]).
  clear D2 T. set (a := IJ_TO_M_SYM p q) in *. set (b := IJ_TO_M_SYM r s) in *. set (c := IJ_TO_M_SYM i j) in *. set (e := IJ_TO_M_SYM k l) in *.
  unfold wr2. destruct (Nat.ltb_spec a 3), (Nat.ltb_spec b 3), (Nat.ltb_spec 2 a), (Nat.ltb_spec 2 b); try (exfalso; lia); cbn [andb];
    (destruct (Nat.eqb_spec c a) as [Ec|]; cbn [andb]; [rewrite Ec|reflexivity]);
    (destruct (Nat.eqb_spec e b) as [Ee|]; cbn [andb]; [rewrite Ee|reflexivity]);
    (destruct (Nat.ltb_spec a (rep_dim rp)); [|lia]); (destruct (Nat.ltb_spec b (rep_dim rp)); [|lia]); cbn [andb];
    unfold wgt;
    repeat match goal with |- context [(?u <? 3)%nat] => destruct (Nat.ltb_spec u 3); try (exfalso; lia) end; try kfield.
  all: try (apply Rgt_not_eq; exact sq2_pos).
  all: try (apply Rmult_integral_contrapositive; split; apply Rgt_not_eq; exact sq2_pos).
Qed.

(** ** tensors of different representations are refused *)
Theorem C63_reps a b c alpha : t2_rep a <> t2_rep b ->
  t2_dot_t2 c a b = Panic /\
  (forall d, t4_ddot_t2 c alpha d a = Ok c -> t2_rep a = t4_rep d) /\
  (forall d, t2_dyad_t2 d alpha a b = Panic) /\ (forall d, t2_odyad_t2 d alpha a b = Panic) /\
  (forall d, t2_udyad_t2 d alpha a b = Panic) /\ (forall d, t2_qsd_t2 d alpha a b = Panic).
Proof.
  intros H. destruct a as [ra u], b as [rb v], c as [rc w]. cbn [t2_rep] in *.
  repeat split.
  - unfold t2_dot_t2. cbn [t2_rep]. destruct rc, ra, rb; try congruence; reflexivity.
  - intros [rd mm ul]. unfold t4_ddot_t2. cbn [t2_rep t4_rep]. destruct ra, rd; cbn [rep_eqb assert_ bind]; congruence.
  - intros [rd mm ul]. unfold t2_dyad_t2. cbn [t2_rep t4_rep]. destruct ra, rb, rd; try congruence; reflexivity.
  - intros [rd mm ul]. unfold t2_odyad_t2. cbn [t2_rep t4_rep]. destruct ra, rb, rd; try congruence; reflexivity.
  - intros [rd mm ul]. unfold t2_udyad_t2. cbn [t2_rep t4_rep]. destruct ra, rb, rd; try congruence; reflexivity.
  - intros [rd mm ul]. unfold t2_qsd_t2. cbn [t2_rep t4_rep]. destruct ra, rb, rd; try congruence; reflexivity.
Qed.

(** non-vacuity: tensors with every component at work *)
Example C63_example :
  let a := mkT2 General (fun m => INR m) in let b := mkT2 General (fun m => INR (m * m)) in
  let d := mkT4 General (fun m n => INR (9 * m + n)) false in
  t2_rep b = t2_rep a /\ t2_rep a = t4_rep d /\ t4_rep d = General /\
  exists c, t4_ddot_t2 (t2_new General) 1 d a = Ok c /\ t2_vec c 0%nat = 204.
Proof.
  cbn zeta. repeat split. eexists; split; [reflexivity|]. unfold t4_ddot_t2. cbn -[INR]. rewrite !INR_IZR_INZ. cbn -[IZR]. ring.
Qed.
Example C63_symmetric_example : Symmetric <> General /\ in_plane 0 1 /\ in_plane 2 2.
Proof. unfold in_plane. repeat split; try congruence; lia. Qed.

Print Assumptions C63_t4_ddot_t2_dyad_t2_ddot_t4.
Print Assumptions C63_t2_dot_t2.
Print Assumptions C63_constants.
Print Assumptions C63_t4_sym_set_std.
