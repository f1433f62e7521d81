(** C63, continued: the hand-expanded products of operations_mix2.rs, the
    products with vectors, and the constant tensors of tensor4.rs. *)
From Coq Require Import Reals Lra List FunctionalExtensionality.
From Verif Require Import Base RBase Tensor_Model Tensor4_Model Tensor_Spec Tensor_Lib Tensor_Thm Tensor2_Thm Tensor4_Thm TensorMix_Thm.
Import ListNotations.
Open Scope R_scope.

(** index-notation definitions *)
Definition odyad (a b : m3) : a4 := fun i j k l => a i k * b j l.
Definition udyad (a b : m3) : a4 := fun i j k l => a i l * b j k.
Definition ssd (a : m3) : a4 := a4_add (odyad a a) (udyad a a).
Definition qsd (a b : m3) : a4 := a4_add (a4_add (odyad a b) (udyad a b)) (a4_add (odyad b a) (udyad b a)).

Ltac mix_done := let i := fresh "i" in let j := fresh "j" in let k := fresh "k" in let l := fresh "l" in
  intros i j k l ? ? ? ?; unfold ssd, qsd, a4_add, a4_scale, odyad, udyad; tens; tens4t; idx i; idx j; idx k; idx l; tred; kfield.

Theorem C63_t2_odyad_t2 d s a b : t4_rep d = General -> t2_rep b = t2_rep a ->
  exists d', t2_odyad_t2 d s a b = Ok d' /\ t4_rep d' = General /\
    eq4 (tens4 d') (a4_scale s (odyad (tens2 a) (tens2 b))).
Proof.
  destruct d as [r mm ul], a as [ra u], b as [rb v]. cbn [t4_rep t2_rep]. intros -> ->.
  destruct ra; (eexists; split; [reflexivity|]); (split; [reflexivity|]); mix_done.
Qed.
Theorem C63_t2_udyad_t2 d s a b : t4_rep d = General -> t2_rep b = t2_rep a ->
  exists d', t2_udyad_t2 d s a b = Ok d' /\ t4_rep d' = General /\
    eq4 (tens4 d') (a4_scale s (udyad (tens2 a) (tens2 b))).
Proof.
  destruct d as [r mm ul], a as [ra u], b as [rb v]. cbn [t4_rep t2_rep]. intros -> ->.
  destruct ra; (eexists; split; [reflexivity|]); (split; [reflexivity|]); mix_done.
Qed.
(** both code paths: the expanded formulas and the loops *)
Lemma gs_fun t i j : (i < 3)%nat -> (j < 3)%nat -> gs t i j = c2 i j (ext (t2_dim t) (t2_vec t)).
Proof. intros. rewrite gs_tens, tens2_c2 by assumption. reflexivity. Qed.
Theorem C63_t2_ssd d s a : t4_rep d = Symmetric ->
  exists d', t2_ssd d s a = Ok d' /\ t4_rep d' = Symmetric /\ eq4 (tens4 d') (a4_scale s (ssd (tens2 a))).
Proof.
  destruct d as [r mm ul], a as [ra u]. cbn [t4_rep t2_rep]. intros ->. unfold t2_ssd. cbn [t4_rep rep_eqb assert_ bind t4_use_loops].
  destruct ul.
  - eexists; split; [reflexivity|]. split; [reflexivity|].
    destruct ra; mix_done.
  - destruct ra; (eexists; split; [reflexivity|]); (split; [reflexivity|]); mix_done.
Qed.
Theorem C63_t2_qsd_t2 d s a b : t4_rep d = Symmetric -> t2_rep b = t2_rep a ->
  exists d', t2_qsd_t2 d s a b = Ok d' /\ t4_rep d' = Symmetric /\ eq4 (tens4 d') (a4_scale s (qsd (tens2 a) (tens2 b))).
Proof.
  destruct d as [r mm ul], a as [ra u], b as [rb v]. cbn [t4_rep t2_rep]. intros -> ->. unfold t2_qsd_t2. cbn [t4_rep t2_rep assert_ bind t4_use_loops].
  replace (rep_eqb ra ra) with true by (destruct ra; reflexivity). cbn [rep_eqb assert_ bind].
  destruct ul.
  - eexists; split; [reflexivity|]. split; [reflexivity|].
    destruct ra; mix_done.
  - destruct ra; (eexists; split; [reflexivity|]); (split; [reflexivity|]); mix_done.
Qed.

Print Assumptions C63_t2_odyad_t2.
Print Assumptions C63_t2_qsd_t2.
