(** Lemmas shared by the tensor theorems: closed forms of the Kelvin-Mandel
    expansion and the tactic that checks component formulas. *)
From Coq Require Import Reals Lra List.
From Verif Require Import Base RBase Tensor_Model Tensor4_Model Tensor_Spec.
Open Scope R_scope.

Lemma sq2 : SQRT_2 * SQRT_2 = 2.
Proof. unfold SQRT_2. apply sqrt_sqrt. lra. Qed.
Lemma sq2_pos : 0 < SQRT_2.
Proof. unfold SQRT_2. apply sqrt_lt_R0. lra. Qed.
Lemma div_sq2 x : x / SQRT_2 = x * SQRT_2 / 2.
Proof. pose proof sq2. pose proof sq2_pos. field_simplify_eq; [|lra]. replace (SQRT_2 ^ 2) with 2 by (rewrite <- H; ring). ring. Qed.

Lemma div_2sq2 x : x / (2 * SQRT_2) = x * SQRT_2 / 4.
Proof. pose proof sq2_pos. replace (x / (2 * SQRT_2)) with (x / SQRT_2 / 2) by (field; lra). rewrite div_sq2. field. Qed.

(** the expansion in the basis, term by term *)
Definition c2 (i j : nat) (f : nat -> R) : R :=
  match i, j with
  | 0%nat, 0%nat => f 0%nat
  | 1%nat, 1%nat => f 1%nat
  | 2%nat, 2%nat => f 2%nat
  | 0%nat, 1%nat => (f 3%nat + f 6%nat) / SQRT_2
  | 1%nat, 0%nat => (f 3%nat - f 6%nat) / SQRT_2
  | 1%nat, 2%nat => (f 4%nat + f 7%nat) / SQRT_2
  | 2%nat, 1%nat => (f 4%nat - f 7%nat) / SQRT_2
  | 0%nat, 2%nat => (f 5%nat + f 8%nat) / SQRT_2
  | 2%nat, 0%nat => (f 5%nat - f 8%nat) / SQRT_2
  | _, _ => 0
  end.
Definition ext (n : nat) (f : nat -> R) : nat -> R := fun m => if (m <? n)%nat then f m else 0.
Definition ext2 (n : nat) (f : nat -> nat -> R) : nat -> nat -> R :=
  fun p q => if ((p <? n) && (q <? n))%nat then f p q else 0.

Ltac idx i := destruct i as [|[|[|i]]]; [| | |exfalso; lia].
Ltac idx9 m := destruct m as [|[|[|[|[|[|[|[|[|m]]]]]]]]]; [| | | | | | | | |exfalso; lia].

Lemma summ_ext_eq n f g : (forall m, (m < n)%nat -> f m = g m) -> summ n f = summ n g.
Proof. induction n; cbn; intros H; [reflexivity|]. rewrite IHn, H by (intros; apply H || idtac; lia). reflexivity. Qed.
Lemma summ_scal n a f : summ n (fun m => a * f m) = a * summ n f.
Proof. induction n; cbn; [ring|]. rewrite IHn. ring. Qed.
Lemma summ_plus n f g : summ n (fun m => f m + g m) = summ n f + summ n g.
Proof. induction n; cbn; [ring|]. rewrite IHn. ring. Qed.
Lemma summ_zero n : summ n (fun _ => 0) = 0.
Proof. induction n; cbn; [ring|]. rewrite IHn. ring. Qed.
Lemma summ_swap n p f : summ n (fun i => summ p (fun j => f i j)) = summ p (fun j => summ n (fun i => f i j)).
Proof. induction n; cbn. - rewrite summ_zero. reflexivity. - rewrite IHn, <- summ_plus. reflexivity. Qed.

Lemma basis_sum9 i j f : (i < 3)%nat -> (j < 3)%nat -> summ 9 (fun m => f m * basis m i j) = c2 i j f.
Proof.
  intros Hi Hj. idx i; idx j; cbn -[Rdiv SQRT_2]; unfold dyad_ij; cbn -[Rdiv SQRT_2];
    fold SQRT_2; rewrite ?div_sq2; field.
Qed.
Lemma summ_dim r (f : nat -> R) (g : nat -> R) :
  summ (rep_dim r) (fun m => f m * g m) = summ 9 (fun m => ext (rep_dim r) f m * g m).
Proof. destruct r; unfold ext; cbn; ring. Qed.
Lemma tens2_c2 t i j : (i < 3)%nat -> (j < 3)%nat -> tens2 t i j = c2 i j (ext (t2_dim t) (t2_vec t)).
Proof. intros Hi Hj. unfold tens2, t2_dim. rewrite summ_dim. apply basis_sum9; auto. Qed.
Lemma c2_ext i j f g : (forall m, (m < 9)%nat -> f m = g m) -> c2 i j f = c2 i j g.
Proof. intros H. unfold c2. destruct i as [|[|[|i]]], j as [|[|[|j]]]; rewrite ?H by lia; reflexivity. Qed.
Lemma tens4_c2 d i j k l : (i < 3)%nat -> (j < 3)%nat -> (k < 3)%nat -> (l < 3)%nat ->
  tens4 d i j k l = c2 i j (fun m => c2 k l (fun n => ext2 (t4_dim d) (t4_mat d) m n)).
Proof.
  intros. unfold tens4, t4_dim. set (r := t4_rep d).
  rewrite (summ_ext_eq _ _ (fun m => c2 k l (ext (rep_dim r) (t4_mat d m)) * basis m i j)).
  2: { intros m Hm. rewrite <- (basis_sum9 k l), <- summ_dim by assumption.
       rewrite Rmult_comm, <- summ_scal. apply summ_ext_eq. intros; ring. }
  rewrite summ_dim, basis_sum9 by assumption. apply c2_ext. intros m Hm. unfold ext, ext2.
  destruct (Nat.ltb_spec m (rep_dim r)).
  - apply c2_ext. intros n Hn. cbn [andb]. reflexivity.
  - cbn [andb]. unfold c2. idx k; idx l; lra.
Qed.

(** the component checker: everything reduced to the stored components, then
    field arithmetic with sqrt 2 squared replaced by 2 *)
Ltac kfield := rewrite ?div_2sq2, ?div_sq2; pose proof sq2 as Hsq2; field [Hsq2].

Ltac tred := cbn -[IZR Rdiv SQRT_2 SQRT_3 SQRT_6 SQRT_2_BY_3 SQRT_3_BY_2 Rabs Rmax sqrt Rpower Reqb Rltb].
Ltac tred_in H := cbn -[IZR Rdiv SQRT_2 SQRT_3 SQRT_6 SQRT_2_BY_3 SQRT_3_BY_2 Rabs Rmax sqrt Rpower Reqb Rltb] in H.
(** replaces every matrix entry [tens2 _ i j] by its closed form *)
Ltac tens := rewrite ?tens2_c2 by lia.
Ltac tens4t := rewrite ?tens4_c2 by lia.
Ltac sums := unfold mdev; unfold mmul, mtrans, mscale, madd, msub, mtrace, mident, mddot, mdet, sum3, kron.
Ltac done2 := intros ? ? ?Hi ?Hj; sums; tens;
  match goal with H1 : (?i < 3)%nat, H2 : (?j < 3)%nat |- _ => idx i; idx j end; tred; kfield.

