(** Specification vocabulary and calculus for C65: derivatives of functions of
    3x3 matrices along lines. Nothing here mentions the model. *)
From Coq Require Import Reals Lra List.
From Coquelicot Require Import Coquelicot.
From Verif Require Import Base RBase Tensor_Model Tensor4_Model Tensor_Spec Tensor_Lib.
Open Scope R_scope.

Definition sym (a : m3) : Prop := eq2 (mtrans a) a.
Definition line (a h : m3) (t : R) : m3 := madd a (mscale t h).
(** [g] is the gradient of [f] at [a] in the directions of [P]: the directional
    derivative of [f] along every [h] is [g : h] *)
Definition gradient (P : m3 -> Prop) (f : m3 -> R) (a g : m3) : Prop :=
  forall h, P h -> is_derive (fun t => f (line a h t)) 0 (mddot g h : R).
Definition every (h : m3) : Prop := True.
(** [d] is the derivative of the matrix function [f] at [a] *)
Definition jacobian (P : m3 -> Prop) (f : m3 -> m3) (a : m3) (d : a4) : Prop :=
  forall h, P h -> forall i j, (i < 3)%nat -> (j < 3)%nat ->
    is_derive (fun t => f (line a h t) i j) 0 (a4_ddot2 d h i j : R).
(** second derivative of a function of symmetric matrices: the derivative of its
    gradient, which exists on the whole domain *)
Definition hessian (dom : m3 -> Prop) (f : m3 -> R) (a : m3) (d : a4) : Prop :=
  exists g : m3 -> m3, (forall b, sym b -> dom b -> sym (g b) /\ gradient sym f b (g b)) /\ jacobian sym g a d.
(** the invariants *)
Definition J2 (a : m3) : R := mtrace (mmul (mdev a) (mdev a)) / 2.
Definition J3 (a : m3) : R := mdet (mdev a).
Definition lode (a : m3) : R := 3 * sqrt 3 * J3 a / (2 * Rpower (J2 a) (3 / 2)).

(** ** calculus *)
Lemma der_ext (f g : R -> R) x (l : R) : (forall t, f t = g t) -> is_derive g x l -> is_derive f x l.
Proof. intros E. apply is_derive_ext. intros t. symmetry. apply E. Qed.
Lemma der_poly (f : R -> R) (c1 c0 c2 c3 : R) : (forall t, f t = c0 + c1 * t + c2 * t * t + c3 * t * t * t) -> is_derive f 0 c1.
Proof. intros E. eapply der_ext; [exact E|]. auto_derive; [exact I|ring]. Qed.
Lemma der_eq (f : R -> R) x (l l' : R) : is_derive f x l -> l = l' -> is_derive f x l'.
Proof. intros H <-. exact H. Qed.
Lemma der_mul (f g : R -> R) x (a b : R) : is_derive f x a -> is_derive g x b -> is_derive (fun t => f t * g t) x (a * g x + f x * b).
Proof. intros. apply (is_derive_mult (K := R_AbsRing) f g x a b); try assumption. intros; apply Rmult_comm. Qed.
Lemma der_scal (f : R -> R) x (a k : R) : is_derive f x a -> is_derive (fun t => k * f t) x (k * a).
Proof. intros. apply (is_derive_scal f x k a). assumption. Qed.
Lemma der_plus (f g : R -> R) x (a b : R) : is_derive f x a -> is_derive g x b -> is_derive (fun t => f t + g t) x (a + b).
Proof. intros. apply (is_derive_plus (K := R_AbsRing) (V := R_NormedModule) f g x a b); assumption. Qed.
Lemma der_minus (f g : R -> R) x (a b : R) : is_derive f x a -> is_derive g x b -> is_derive (fun t => f t - g t) x (a - b).
Proof. intros. apply (is_derive_minus (K := R_AbsRing) (V := R_NormedModule) f g x a b); assumption. Qed.
Lemma der_sqrt (u : R -> R) x (du : R) : is_derive u x du -> 0 < u x -> is_derive (fun t => sqrt (u t)) x (du / (2 * sqrt (u x))).
Proof.
  intros H P. exact (is_derive_sqrt u x du H P).
Qed.
Lemma der_pow (u : R -> R) x (du p : R) : is_derive u x du -> 0 < u x ->
  is_derive (fun t => Rpower (u t) p) x (p * Rpower (u x) (p - 1) * du).
Proof.
  intros H P. unfold Rpower.
  assert (L : is_derive (fun t => p * ln (u t)) x (p * (du / u x))).
  { apply (der_scal (fun t => ln (u t))). eapply der_eq; [apply (is_derive_comp ln u x (/ u x) du)|].
    - apply is_derive_ln. exact P.
    - exact H.
    - reflexivity. }
  eapply der_eq; [apply (is_derive_comp exp (fun t => p * ln (u t)) x (exp (p * ln (u x))) (p * (du / u x)))|].
  - apply is_derive_exp.
  - exact L.
  - change (scal (p * (du / u x)) (exp (p * ln (u x)))) with (p * (du / u x) * exp (p * ln (u x))).
    replace ((p - 1) * ln (u x)) with (p * ln (u x) + - ln (u x)) by ring. rewrite exp_plus, exp_Ropp, exp_ln by exact P.
    field. lra.
Qed.
Lemma inv_pow x p : / Rpower x p = Rpower x (- p).
Proof. rewrite Rpower_Ropp. reflexivity. Qed.

(** ** the matrix level *)
Lemma sym3 a : sym a -> a 1%nat 0%nat = a 0%nat 1%nat /\ a 2%nat 0%nat = a 0%nat 2%nat /\ a 2%nat 1%nat = a 1%nat 2%nat.
Proof. intros H. repeat split; apply H; lia. Qed.
Lemma sym_line a h t : sym a -> sym h -> sym (line a h t).
Proof. intros A H i j Hi Hj. unfold line, madd, mscale, mtrans. f_equal; [apply A|f_equal; apply H]; assumption. Qed.
Lemma line0 a h : eq2 (line a h 0) a.
Proof. intros i j _ _. unfold line, madd, mscale. ring. Qed.
Ltac un := unfold line, J2, J3, mdet, mdev, mddot, mmul, mtrace, madd, msub, mscale, mtrans, mident, a4_ddot2, sum3, kron, lc in *.
Ltac symm := repeat match goal with H : sym ?a |- _ => apply sym3 in H; let E := fresh "E" in let F := fresh "F" in let G := fresh "G" in
   destruct H as (E & F & G) end;
  repeat match goal with E : ?a 1%nat 0%nat = _ |- _ => rewrite E in *; clear E | E : ?a 2%nat 0%nat = _ |- _ => rewrite E in *; clear E
   | E : ?a 2%nat 1%nat = _ |- _ => rewrite E in *; clear E end.
Lemma J2_eq a b : eq2 a b -> J2 a = J2 b.
Proof. intros H. un. cbn [Nat.eqb]. rewrite !H by lia. reflexivity. Qed.
Lemma J3_eq a b : eq2 a b -> J3 a = J3 b.
Proof. intros H. un. cbn [Nat.eqb]. rewrite !H by lia. reflexivity. Qed.
Definition dJ3 (a : m3) : m3 := msub (mmul (mdev a) (mdev a)) (mscale (2 / 3 * J2 a) mident).
Lemma dev_sym a : sym a -> sym (mdev a).
Proof. intros H i j Hi Hj. symm. un. idx i; idx j; cbn [Nat.eqb]; symm; ring. Qed.
Lemma dJ3_sym a : sym a -> sym (dJ3 a).
Proof. intros H i j Hi Hj. symm. unfold dJ3. un. idx i; idx j; cbn [Nat.eqb]; symm; ring. Qed.
Lemma grad_J2 a : sym a -> gradient sym J2 a (mdev a).
Proof.
  intros A h H. apply (der_poly _ _ (J2 a) (J2 h) 0). intros t. un. cbn [Nat.eqb]. symm. field.
Qed.
Lemma grad_J3 a : sym a -> gradient sym J3 a (dJ3 a).
Proof.
  intros A h H. apply (der_poly _ _ (J3 a) (mddot (dJ3 h) a) (J3 h)). intros t. unfold dJ3. un. cbn [Nat.eqb]. symm. field.
Qed.
Definition symdev4 : a4 := fun i j k l => (kron i k * kron j l + kron i l * kron j k) / 2 - kron i j * kron k l / 3.
Lemma jac_dev a : jacobian sym mdev a symdev4.
Proof.
  intros h H i j Hi Hj. apply (der_poly _ _ (mdev a i j) 0 0). intros t. symm. unfold symdev4. un.
  idx i; idx j; cbn [Nat.eqb]; symm; field.
Qed.
(** derivative of [s.s - (2/3) J2 I] in the direction [h] *)
Definition hJ3 (a h : m3) : m3 := msub (madd (mmul (mdev a) (mdev h)) (mmul (mdev h) (mdev a))) (mscale (2 / 3 * mddot (mdev a) h) mident).
Lemma jac_dJ3 a : sym a -> forall h, sym h -> forall i j, (i < 3)%nat -> (j < 3)%nat -> is_derive (fun t => dJ3 (line a h t) i j) 0 (hJ3 a h i j : R).
Proof.
  intros A h H i j Hi Hj. apply (der_poly _ _ (dJ3 a i j) (dJ3 h i j) 0). intros t. unfold dJ3, hJ3. symm. un.
  idx i; idx j; cbn [Nat.eqb]; symm; field.
Qed.
