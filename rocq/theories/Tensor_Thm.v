(** Theorems about second-order tensors: C61, the Kelvin-Mandel representation
    is a faithful isometry (second order; Tensor4_Thm.v has the fourth order).
    The specification is in Tensor_Spec.v: [tens2 t] is the 3x3 matrix whose
    Kelvin-Mandel components are stored in [t]. *)
From Coq Require Import Reals Lra List.
From Verif Require Import Base RBase Sort_Model Tensor_Model Tensor4_Model Tensor_Spec Tensor_Lib.
Import ListNotations.
Open Scope R_scope.

(** ** C61 *)

(** the nine basis tensors are orthonormal *)
Theorem C61_basis_orthonormal m n : (m < 9)%nat -> (n < 9)%nat -> mddot (basis m) (basis n) = kron m n.
Proof.
  intros Hm Hn. unfold mddot, sum3. idx9 m; idx9 n; unfold basis, dyad_ij, kron; cbn -[IZR Rdiv sqrt];
    fold SQRT_2; kfield.
Qed.
Theorem C61_get_std t i j : (i < 3)%nat -> (j < 3)%nat -> t2_get_std t i j = Ok (tens2 t i j).
Proof.
  intros Hi Hj. tens. destruct t as [[| |] v]; idx i; idx j; unfold t2_get_std; tred; f_equal; kfield.
Qed.
Theorem C61_get_std_range t i j : ~ ((i < 3)%nat /\ (j < 3)%nat) -> t2_get_std t i j = Panic.
Proof. intros H. unfold t2_get_std. destruct (Nat.ltb_spec i 3), (Nat.ltb_spec j 3); cbn; auto. lia. Qed.
Lemma gs_tens t i j : (i < 3)%nat -> (j < 3)%nat -> gs t i j = tens2 t i j.
Proof. intros. unfold gs. rewrite C61_get_std by assumption. reflexivity. Qed.

Lemma Reqb_dec a b : (Reqb a b = true /\ a = b) \/ (Reqb a b = false /\ a <> b).
Proof. destruct (Reqb a b) eqn:E; [left|right]; split; auto; [apply Reqb_true in E|apply Reqb_false in E]; auto. Qed.

(** `set_std_matrix` succeeds exactly on what the representation can hold, and
    then the stored tensor is the given matrix *)
Theorem C61_set_std_matrix t a :
  (admissible2 (t2_rep t) a /\
   exists t', t2_set_std_matrix t a = Ok t' /\ t2_rep t' = t2_rep t /\ eq2 (tens2 t') a) \/
  (~ admissible2 (t2_rep t) a /\ exists e, t2_set_std_matrix t a = Err e).
Proof.
  destruct t as [r v]. cbn [t2_rep].
  assert (Sy : eq2 (mtrans a) a <-> a 1%nat 0%nat = a 0%nat 1%nat /\ a 2%nat 1%nat = a 1%nat 2%nat /\ a 2%nat 0%nat = a 0%nat 2%nat).
  { split.
    - intros H. repeat split; apply H; lia.
    - intros (A & B & C) i j Hi Hj. unfold mtrans. idx i; idx j; congruence. }
  destruct r; unfold admissible2.
  - left. split; [exact I|]. eexists; split; [reflexivity|]. split; [reflexivity|].
    intros i j Hi Hj. tens. idx i; idx j; tred; kfield.
  - unfold t2_set_std_matrix. cbn [t2_dim t2_rep rep_dim Nat.eqb orb].
    destruct (Reqb_dec (a 1 0)%nat (a 0 1)%nat) as [[-> A]|[-> A]], (Reqb_dec (a 2 1)%nat (a 1 2)%nat) as [[-> B]|[-> B]],
      (Reqb_dec (a 2 0)%nat (a 0 2)%nat) as [[-> C]|[-> C]]; cbn [negb orb bind].
    all: try (right; split; [intros K; apply Sy in K; tauto|eexists; reflexivity]).
    left. split; [apply Sy; auto|]. eexists; split; [reflexivity|]. split; [reflexivity|].
    intros i j Hi Hj. tens. idx i; idx j; tred; rewrite ?A, ?B, ?C; kfield.
  - unfold t2_set_std_matrix. cbn [t2_dim t2_rep rep_dim Nat.eqb orb].
    destruct (Reqb_dec (a 1 0)%nat (a 0 1)%nat) as [[-> A]|[-> A]], (Reqb_dec (a 2 1)%nat (a 1 2)%nat) as [[-> B]|[-> B]],
      (Reqb_dec (a 2 0)%nat (a 0 2)%nat) as [[-> C]|[-> C]]; cbn [negb orb bind].
    all: try (right; split; [intros [K _]; apply Sy in K; tauto|eexists; reflexivity]).
    destruct (Reqb_dec (a 1 2)%nat 0) as [[-> D]|[-> D]], (Reqb_dec (a 0 2)%nat 0) as [[-> E]|[-> E]]; cbn [negb orb bind].
    all: try (right; split; [intros (_ & K & L); tauto|eexists; reflexivity]).
    left. split; [repeat split; auto; apply Sy; auto|]. eexists; split; [reflexivity|]. split; [reflexivity|].
    intros i j Hi Hj. tens. idx i; idx j; tred; rewrite ?A, ?B, ?C, ?D, ?E; kfield.
Qed.
Theorem C61_to_std_matrix t : exists mm, t2_as_std_matrix t = Ok ((3, 3)%nat, mm) /\ eq2 mm (tens2 t).
Proof.
  assert (G : forall i j, (i < 3)%nat -> (j < 3)%nat -> gs t i j = tens2 t i j) by (intros; apply gs_tens; auto).
  assert (S : t2_rep t <> General -> forall i j, (i < 3)%nat -> (j < 3)%nat -> tens2 t j i = tens2 t i j).
  { intros HG i j Hi Hj. tens. destruct t as [[| |] v]; cbn [t2_rep] in HG; try congruence; idx i; idx j; tred; kfield. }
  unfold t2_as_std_matrix, t2_to_std_matrix, t2_dim. cbn [Nat.eqb andb assert_ bind].
  destruct (t2_rep t) eqn:Er; cbn -[gs tens2]; eexists; split; try reflexivity;
    intros i j Hi Hj; idx i; idx j; cbn -[gs tens2]; rewrite ?G by lia; try reflexivity; try (apply S; [discriminate|lia|lia]).
  all: tens; destruct t as [r v]; cbn [t2_rep] in Er; subst r; tred; kfield.
Qed.
(** the round trip, for every admissible matrix *)
Theorem C61_roundtrip r a : admissible2 r a ->
  exists t mm, t2_from_std_matrix a r = Ok t /\ t2_as_std_matrix t = Ok ((3, 3)%nat, mm) /\ eq2 mm a.
Proof.
  intros H. unfold t2_from_std_matrix.
  destruct (C61_set_std_matrix (t2_new r) a) as [(_ & t & E & _ & F)|(K & _)]; [|contradiction].
  destruct (C61_to_std_matrix t) as (mm & G & J). exists t, mm. repeat split; auto.
  intros i j Hi Hj. rewrite J, F by assumption. reflexivity.
Qed.
(** and back: the stored components are determined by the matrix *)
Theorem C61_components t m : (m < t2_dim t)%nat -> t2_vec t m = mddot (tens2 t) (basis m).
Proof.
  intros Hm. unfold mddot, sum3. tens.
  destruct t as [[| |] v]; cbn in Hm;
    (do 9 (destruct m as [|m]; [first [exfalso; lia | unfold basis, dyad_ij, kron; tred; fold SQRT_2; kfield]|])); lia.
Qed.
Theorem C61_norm t : t2_norm t = mfrob (tens2 t).
Proof.
  unfold t2_norm, mfrob. sums. tens. destruct t as [[| |] v]; tred; f_equal; kfield.
Qed.
Theorem C61_inner_product a b : t2_rep a = t2_rep b -> t2_ddot_t2 a b = Ok (mddot (tens2 a) (tens2 b)).
Proof.
  intros H. sums. tens. unfold t2_ddot_t2. rewrite H.
  destruct a as [ra u], b as [rb v]; cbn [t2_rep] in H; subst; destruct rb; tred; f_equal; kfield.
Qed.
Theorem C61_inner_product_reps a b : t2_rep a <> t2_rep b -> t2_ddot_t2 a b = Panic.
Proof. unfold t2_ddot_t2. destruct (t2_rep a), (t2_rep b); cbn; congruence. Qed.
Theorem C61_as_general t : t2_rep (t2_as_general t) = General /\ eq2 (tens2 (t2_as_general t)) (tens2 t).
Proof. split; [reflexivity|]. destruct t as [[| |] v]; done2. Qed.
Theorem C61_sym2d_as_symmetric t : t2_rep t = Symmetric2D ->
  exists t', t2_sym2d_as_symmetric t = Ok t' /\ t2_rep t' = Symmetric /\ eq2 (tens2 t') (tens2 t).
Proof.
  destruct t as [r v]; cbn [t2_rep]; intros ->. eexists; split; [reflexivity|]. split; [reflexivity|]. done2.
Qed.
Theorem C61_as_std_matrix_2d t : t2_rep t = Symmetric2D ->
  exists mm, t2_as_std_matrix_2d t = Ok (tens2 t 2%nat 2%nat, mm) /\
    (forall i j, (i < 2)%nat -> (j < 2)%nat -> mm i j = tens2 t i j) /\
    (forall i, (i < 2)%nat -> tens2 t i 2%nat = 0 /\ tens2 t 2%nat i = 0).
Proof.
  intros H. unfold t2_as_std_matrix_2d. rewrite H. cbn [rep_eqb assert_ bind].
  rewrite !gs_tens by lia. eexists; split; [reflexivity|]. split.
  - intros i j Hi Hj. destruct i as [|[|i]]; [| |lia]; (destruct j as [|[|j]]; [| |lia]); reflexivity.
  - intros i Hi. tens. destruct t as [r v]; cbn [t2_rep] in H; subst r.
    destruct i as [|[|i]]; [| |lia]; tred; split; kfield.
Qed.
(** writing one (symmetric pair of) component(s) *)
Definition put_pair (a : m3) (p q : nat) (x : R) : m3 := fun i j =>
  if ((i =? p) && (j =? q) || (i =? q) && (j =? p))%nat then x else a i j.
Theorem C61_sym_set_std t p q x : t2_rep t <> General -> (p < 3)%nat -> (q < 3)%nat ->
  (t2_rep t = Symmetric2D -> in_plane p q) ->
  exists t', t2_sym_set_std t p q x = Ok t' /\ t2_rep t' = t2_rep t /\
    eq2 (tens2 t') (put_pair (tens2 t) p q x).
Proof.
  intros H Hp Hq H2. destruct t as [r v]; cbn [t2_rep] in *. destruct r; [congruence| |].
  - idx p; idx q; eexists; (split; [reflexivity|]); (split; [reflexivity|]);
      intros i j Hi Hj; unfold put_pair; idx i; idx j; cbn [Nat.eqb andb orb]; tens; tred; kfield.
  - specialize (H2 eq_refl). unfold in_plane in H2.
    idx p; idx q; try (exfalso; lia); eexists; (split; [reflexivity|]); (split; [reflexivity|]);
      intros i j Hi Hj; unfold put_pair; idx i; idx j; cbn [Nat.eqb andb orb]; tens; tred; kfield.
Qed.
Theorem C61_sym_add_std t p q alpha x : t2_rep t <> General -> (p <= q)%nat -> (q < 3)%nat ->
  (t2_rep t = Symmetric2D -> in_plane p q) ->
  exists t', t2_sym_add_std t p q alpha x = Ok t' /\ t2_rep t' = t2_rep t /\
    eq2 (tens2 t') (put_pair (tens2 t) p q (tens2 t p q + alpha * x)).
Proof.
  intros H Hpq Hq H2. assert (Hp : (p < 3)%nat) by lia. destruct t as [r v]; cbn [t2_rep] in *. destruct r; [congruence| |].
  - idx p; idx q; try (exfalso; lia); eexists; (split; [reflexivity|]); (split; [reflexivity|]);
      intros i j Hi Hj; unfold put_pair; idx i; idx j; cbn [Nat.eqb andb orb]; tens; tred; kfield.
  - specialize (H2 eq_refl). unfold in_plane in H2.
    idx p; idx q; try (exfalso; lia); eexists; (split; [reflexivity|]); (split; [reflexivity|]);
      intros i j Hi Hj; unfold put_pair; idx i; idx j; cbn [Nat.eqb andb orb]; tens; tred; kfield.
Qed.
(** out of the plane the value is lost without an error *)
Theorem C61_sym_set_std_plane_refuted :
  exists t t', t2_rep t = Symmetric2D /\ t2_sym_set_std t 0 2 1 = Ok t' /\ t2_get_std t' 0 2 = Ok 0.
Proof. exists (t2_new Symmetric2D). eexists. split; [reflexivity|]. split; reflexivity. Qed.
Theorem C61_set_tensor t alpha o : t2_rep t = t2_rep o ->
  exists t', t2_set_tensor t alpha o = Ok t' /\ t2_rep t' = t2_rep t /\ eq2 (tens2 t') (mscale alpha (tens2 o)).
Proof.
  intros H. unfold t2_set_tensor. destruct t as [r u], o as [r' v]; cbn [t2_rep] in *; subst r'.
  destruct r; (eexists; split; [reflexivity|]); (split; [reflexivity|]); done2.
Qed.
Theorem C61_update t alpha o : t2_rep t = t2_rep o ->
  exists t', t2_update t alpha o = Ok t' /\ t2_rep t' = t2_rep t /\ eq2 (tens2 t') (madd (tens2 t) (mscale alpha (tens2 o))).
Proof.
  intros H. unfold t2_update. destruct t as [r u], o as [r' v]; cbn [t2_rep] in *; subst r'.
  destruct r; (eexists; split; [reflexivity|]); (split; [reflexivity|]); done2.
Qed.
Theorem C61_set_vector t alpha l : length l = t2_dim t ->
  exists t', t2_set_vector t alpha l = Ok t' /\ t2_rep t' = t2_rep t /\
    eq2 (tens2 t') (mscale alpha (tens2 (mkT2 (t2_rep t) (fun m => nth m l 0)))).
Proof.
  intros H. unfold t2_set_vector. rewrite H, Nat.eqb_refl. destruct t as [[| |] u]; cbn [t2_rep assert_ bind]; cbn in H.
  - do 9 (destruct l as [|? l]; [discriminate H|]). destruct l; [|discriminate H].
    (eexists; split; [reflexivity|]); (split; [reflexivity|]); done2.
  - do 6 (destruct l as [|? l]; [discriminate H|]). destruct l; [|discriminate H].
    (eexists; split; [reflexivity|]); (split; [reflexivity|]); done2.
  - do 4 (destruct l as [|? l]; [discriminate H|]). destruct l; [|discriminate H].
    (eexists; split; [reflexivity|]); (split; [reflexivity|]); done2.
Qed.
Theorem C61_clear_new_identity t r : eq2 (tens2 (t2_clear t)) (fun _ _ => 0) /\
  eq2 (tens2 (t2_new r)) (fun _ _ => 0) /\ eq2 (tens2 (t2_identity r)) mident.
Proof. split; [|split]. - destruct t as [[| |] v]; done2. - destruct r; done2. - destruct r; done2. Qed.

(** non-vacuity: a matrix with six different components is admissible for the
    general and, symmetrised, for the symmetric representation *)
Example C61_example :
  admissible2 General (fun i j => INR (i + 3 * j)) /\ admissible2 Symmetric (fun i j => INR (i * j + i + j)) /\
  admissible2 Symmetric2D (fun i j => if (i =? 2)%nat then if (j =? 2)%nat then 5 else 0 else if (j =? 2)%nat then 0 else INR (i + j)).
Proof.
  unfold admissible2, eq2, mtrans. splits; try exact I; try reflexivity.
  - intros. f_equal. lia.
  - intros i j Hi Hj. destruct (Nat.eqb_spec i 2), (Nat.eqb_spec j 2); try reflexivity; try (f_equal; lia).
Qed.
Print Assumptions C61_roundtrip.
Print Assumptions C61_set_std_matrix.
Print Assumptions C61_inner_product.
