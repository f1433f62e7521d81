(** C30: Lagrange interpolation *)
From Coq Require Import Reals Lra Lia List String ZArith Psatz.
From Coquelicot Require Import Coquelicot.
From Verif Require Import Base RBase RSum LabVec_Model LabVec_Thm Dense_Model Dense_Proofs Dense_Thm Cheb_Model Cheb_Thm ChebFn_Model ChebFn_Thm MathFn_Model MathFn_Thm Search_Model Jacobi_Thm Poly InterpLagrange_Model.
Import ListNotations.
Open Scope R_scope.

(* ------------------------------------------------------------------ *)
(** * Specification: the cardinal polynomials *)

Fixpoint prodn (m : nat) (f : nat -> R) : R := match m with O => 1 | S m' => prodn m' f * f m' end.

(** the polynomial of degree n that is 1 at X j and 0 at the other nodes X 0, ..., X n *)
Definition ell (n : nat) (X : nat -> R) (j : nat) (x : R) : R :=
  prodn (S n) (fun k => if (k =? j)%nat then 1 else (x - X k) / (X j - X k)).

(* ------------------------------------------------------------------ *)
(** * Products *)

Lemma prodn_ext m f g : (forall k, (k < m)%nat -> f k = g k) -> prodn m f = prodn m g.
Proof. induction m as [|m IH]; intros H; cbn; auto. rewrite IH by auto. now rewrite H by lia. Qed.
Lemma prodn_nonzero m f : (forall k, (k < m)%nat -> f k <> 0) -> prodn m f <> 0.
Proof. induction m as [|m IH]; intros H; cbn; [lra|]. apply Rmult_integral_contrapositive. split; [apply IH; intros; apply H; lia|apply H; lia]. Qed.
Lemma prodn_zero m f k : (k < m)%nat -> f k = 0 -> prodn m f = 0.
Proof.
  induction m as [|m IH]; intros H E; [lia|]. cbn. destruct (Nat.eq_dec k m) as [->|N]; [rewrite E; ring|]. rewrite IH by (auto; lia). ring.
Qed.
Lemma prodn_div m f g : (forall k, (k < m)%nat -> g k <> 0) -> prodn m (fun k => f k / g k) = prodn m f / prodn m g.
Proof.
  induction m as [|m IH]; intros H; cbn; [lra|]. rewrite IH by (intros; apply H; lia). field. split; [apply H; lia|]. apply prodn_nonzero. intros; apply H; lia.
Qed.
Lemma prodn_one m f : (forall k, (k < m)%nat -> f k = 1) -> prodn m f = 1.
Proof. induction m as [|m IH]; intros H; cbn; auto. rewrite IH, H by auto. ring. Qed.
Lemma prodn_skip m j f : (j < m)%nat -> prodn m f = f j * prodn m (fun k => if (k =? j)%nat then 1 else f k).
Proof.
  induction m as [|m IH]; intros H; [lia|]. cbn. destruct (Nat.eq_dec j m) as [->|N].
  - rewrite Nat.eqb_refl. rewrite (prodn_ext m (fun k => if (k =? m)%nat then 1 else f k) f); [ring|]. intros k Hk. destruct (Nat.eqb_spec k m); [lia|auto].
  - rewrite IH by lia. destruct (Nat.eqb_spec m j); [lia|]. ring.
Qed.

(* ------------------------------------------------------------------ *)
(** * Theory of the barycentric form *)

Section Bary.
Variable n : nat.
Variable X : nat -> R.
Hypothesis HX : forall i j, (i < S n)%nat -> (j < S n)%nat -> X i = X j -> i = j.

Definition wt (j : nat) : R := prodn (S n) (fun k => if (k =? j)%nat then 1 else X j - X k).
Definition off (x : R) : Prop := forall k, (k < S n)%nat -> x <> X k.

Lemma wt_nonzero j : (j < S n)%nat -> wt j <> 0.
Proof. intros H. apply prodn_nonzero. intros k Hk. destruct (Nat.eqb_spec k j); [lra|]. intros E. apply n0. apply HX; auto. lra. Qed.

Lemma ell_poly_aux j m : (j < S n)%nat -> (m <= S n)%nat -> is_poly (if (j <? m)%nat then m else S m) (fun x => prodn m (fun k => if (k =? j)%nat then 1 else (x - X k) / (X j - X k))).
Proof.
  intros Hj. induction m as [|m IH]; intros Hm.
  - cbn. apply is_poly_const. lia.
  - specialize (IH ltac:(lia)). cbn [prodn]. destruct (Nat.eqb_spec m j) as [->|N].
    + destruct (Nat.ltb_spec j (S j)); [|lia]. destruct (Nat.ltb_spec j j); [lia|]. eapply is_poly_ext; [exact IH|]. intros x. cbn. ring.
    + assert (P : forall q f, is_poly q f -> is_poly (S q) (fun x => f x * ((x - X m) / (X j - X m)))).
      { intros q f Hf. apply is_poly_ext with (fun x => / (X j - X m) * ((x - X m) * f x)); [|intros; unfold Rdiv; ring]. apply is_poly_scal, is_poly_lin, Hf. }
      destruct (Nat.ltb_spec j m), (Nat.ltb_spec j (S m)); try lia; now apply P.
Qed.
Lemma ell_poly j : (j < S n)%nat -> is_poly (S n) (ell n X j).
Proof. intros H. pose proof (ell_poly_aux j (S n) H (le_n _)) as K. destruct (Nat.ltb_spec j (S n)); [exact K|lia]. Qed.

Lemma ell_node j i : (j < S n)%nat -> (i < S n)%nat -> ell n X j (X i) = delta i j.
Proof.
  intros Hj Hi. unfold ell, delta. destruct (Nat.eqb_spec i j) as [->|N].
  - apply prodn_one. intros k Hk. destruct (Nat.eqb_spec k j) as [|N]; auto. field. intros E. apply N, HX; auto. lra.
  - apply (prodn_zero _ _ i Hi). destruct (Nat.eqb_spec i j); [lia|]. unfold Rdiv. ring.
Qed.

Lemma interpolate p x : is_poly (S n) p -> p x = sumn (S n) (fun j => p (X j) * ell n X j x).
Proof.
  intros Hp. revert x. apply (poly_agree (S n) p (fun x => sumn (S n) (fun j => p (X j) * ell n X j x)) X); auto.
  - apply (is_poly_sum (S n) (S n) (fun j x => p (X j) * ell n X j x)). intros j Hj. apply is_poly_scal, ell_poly, Hj.
  - intros i Hi. rewrite (sumn_single (S n) _ i Hi).
    + rewrite ell_node by auto. unfold delta. rewrite Nat.eqb_refl. ring.
    + intros j Hj N. rewrite ell_node by auto. unfold delta. destruct (Nat.eqb_spec i j); [lia|]. ring.
Qed.

Lemma partition x : sumn (S n) (fun j => ell n X j x) = 1.
Proof.
  rewrite (interpolate (fun _ => 1) x) by (apply is_poly_const; lia). apply sumn_ext. intros. ring.
Qed.

Definition ww (x : R) : R := prodn (S n) (fun k => x - X k).
Lemma ww_nonzero x : off x -> ww x <> 0.
Proof. intros H. apply prodn_nonzero. intros k Hk E. apply (H k Hk). lra. Qed.
Lemma ell_off j x : (j < S n)%nat -> off x -> ell n X j x = ww x * (/ wt j / (x - X j)).
Proof.
  intros Hj Hx. unfold ell, ww.
  rewrite (prodn_ext _ _ (fun k => (if (k =? j)%nat then 1 else x - X k) / (if (k =? j)%nat then 1 else X j - X k))) by (intros k _; destruct (k =? j)%nat; auto; field).
  rewrite prodn_div.
  - fold (wt j). rewrite (prodn_skip (S n) j (fun k => x - X k) Hj). pose proof (wt_nonzero j Hj). assert (x - X j <> 0) by (intros E; apply (Hx j Hj); lra). field. auto.
  - intros k Hk. destruct (Nat.eqb_spec k j) as [|N]; [lra|]. intros E. apply N, HX; auto. lra.
Qed.

Variable C : R.
Hypothesis HC : C <> 0.
Variable lam : nat -> R.
Hypothesis Hlam : forall j, (j < S n)%nat -> lam j = C / wt j.
Hypothesis Hout : exists x, off x.

Lemma lam_nonzero j : (j < S n)%nat -> lam j <> 0.
Proof. intros H. rewrite Hlam by auto. unfold Rdiv. apply Rmult_integral_contrapositive. split; auto. apply Rinv_neq_0_compat. now apply wt_nonzero. Qed.

Lemma den_value x : off x -> sumn (S n) (fun k => lam k / (x - X k)) = C / ww x.
Proof.
  intros Hx. apply Rmult_eq_reg_l with (ww x); [|now apply ww_nonzero]. rewrite <- sumn_scal. transitivity (sumn (S n) (fun j => C * ell n X j x)).
  - apply sumn_ext. intros k Hk. rewrite ell_off, Hlam by auto. unfold Rdiv. ring.
  - rewrite sumn_scal, partition. field. now apply ww_nonzero.
Qed.

Lemma bary_value j x : (j < S n)%nat -> off x -> lam j / (x - X j) / sumn (S n) (fun k => lam k / (x - X k)) = ell n X j x.
Proof.
  intros Hj Hx. rewrite den_value, ell_off, Hlam by auto. pose proof (wt_nonzero j Hj). pose proof (ww_nonzero x Hx). assert (x - X j <> 0) by (intros E; apply (Hx j Hj); lra). field. auto.
Qed.

(** weighted sums over the nodes *)
Lemma off_sum (F : nat -> R) q x : off x -> is_poly (S n) q -> (forall j, (j < S n)%nat -> F j = q (X j)) ->
  sumn (S n) (fun j => lam j / (x - X j) * F j) / sumn (S n) (fun j => lam j / (x - X j)) = q x.
Proof.
  intros Hx Hq HF. unfold Rdiv at 1. rewrite Rmult_comm, <- sumn_scal. rewrite (interpolate q x Hq). apply sumn_ext. intros j Hj. rewrite HF by auto. rewrite <- (bary_value j x Hj Hx). unfold Rdiv. ring.
Qed.

Lemma low_sum q : is_poly n q -> sumn (S n) (fun j => lam j * q (X j)) = 0.
Proof.
  intros Hq. destruct Hout as (x & Hx).
  pose proof (interpolate (fun t => (t - x) * q t) x (is_poly_lin n x q Hq)) as K. cbv beta in K. rewrite Rminus_eq_0, Rmult_0_l in K.
  apply Rmult_eq_reg_l with (- ww x / C).
  - rewrite Rmult_0_r. rewrite <- sumn_scal. rewrite K. apply sumn_ext. intros j Hj. rewrite ell_off, Hlam by auto. pose proof (wt_nonzero j Hj). assert (x - X j <> 0) by (intros E; apply (Hx j Hj); lra). field. auto.
  - apply Rmult_integral_contrapositive. split; [apply Ropp_neq_0_compat; now apply ww_nonzero|now apply Rinv_neq_0_compat].
Qed.

(** the sum without term k *)
Definition sumx (k : nat) (F : nat -> R) : R := sumn (S n) (fun j => if (j =? k)%nat then 0 else F j).
Lemma sumx_split k F : (k < S n)%nat -> sumn (S n) F = F k + sumx k F.
Proof.
  intros Hk. unfold sumx. assert (E : sumn (S n) (fun j => if (j =? k)%nat then F j else 0) = F k).
  { rewrite (sumn_single (S n) _ k Hk); [now rewrite Nat.eqb_refl|]. intros j Hj N. destruct (Nat.eqb_spec j k); [lia|auto]. }
  rewrite <- E, <- sumn_plus. apply sumn_ext. intros j Hj. destruct (j =? k)%nat; ring.
Qed.
Lemma sumx_ext k F G : (forall j, (j < S n)%nat -> j <> k -> F j = G j) -> sumx k F = sumx k G.
Proof. intros H. apply sumn_ext. intros j Hj. destruct (Nat.eqb_spec j k); auto. Qed.
Lemma sumx_scal k c F : sumx k (fun j => c * F j) = c * sumx k F.
Proof. unfold sumx. rewrite <- sumn_scal. apply sumn_ext. intros j Hj. destruct (j =? k)%nat; ring. Qed.
Lemma sumx_plus k F G : sumx k (fun j => F j + G j) = sumx k F + sumx k G.
Proof. unfold sumx. rewrite <- sumn_plus. apply sumn_ext. intros j Hj. destruct (j =? k)%nat; ring. Qed.

Lemma at_sum k q : (k < S n)%nat -> is_poly n q -> sumx k (fun j => lam j / lam k * q (X j)) = - q (X k).
Proof.
  intros Hk Hq. pose proof (low_sum q Hq) as K. rewrite (sumx_split k) in K by auto. pose proof (lam_nonzero k Hk) as L.
  rewrite (sumx_ext k _ (fun j => / lam k * (lam j * q (X j)))) by (intros; unfold Rdiv; ring). rewrite sumx_scal.
  apply Rmult_eq_reg_l with (lam k); auto. rewrite <- Rmult_assoc, Rinv_r by auto. lra.
Qed.

(** divided differences of a polynomial at a point, and its derivatives there *)
Lemma divided p x : is_poly (S n) p -> exists q q2, is_poly n q /\ is_poly n q2 /\
  (forall t, p t = p x + (t - x) * q t) /\ (forall t, q t = q x + (t - x) * q2 t) /\ is_derive p x (q x) /\
  (forall (p1 : R -> R) (d : R), (forall t, is_derive p t (p1 t)) -> is_derive p1 x d -> d = 2 * q2 x).
Proof.
  intros (c & L & H). exists (peval (pdiv c x)), (peval (pdiv (pdiv c x) x)).
  assert (P1 : forall t, p t = p x + (t - x) * peval (pdiv c x) t) by (intros t; rewrite !H; apply pdiv_spec).
  assert (P2 : forall t, peval (pdiv c x) t = peval (pdiv c x) x + (t - x) * peval (pdiv (pdiv c x) x) t) by (intros t; apply pdiv_spec).
  set (q := peval (pdiv c x)) in *. set (q2 := peval (pdiv (pdiv c x) x)) in *.
  assert (D1 : forall t, is_derive q t (peval (pder (pdiv c x)) t)) by (intros t; apply is_derive_peval).
  assert (D2 : forall t, is_derive q2 t (peval (pder (pdiv (pdiv c x) x)) t)) by (intros t; apply is_derive_peval).
  set (r2 := peval (pder (pdiv (pdiv c x) x))) in *.
  splits; auto.
  - exists (pdiv c x). split; [rewrite pdiv_length; lia|reflexivity].
  - exists (pdiv (pdiv c x) x). split; [rewrite !pdiv_length; lia|reflexivity].
  - apply (is_derive_ext (fun t => p x + (t - x) * q t)); [intros t; symmetry; apply P1|].
    auto_derive; [eexists; apply D1|]. ring.
  - intros p1 d Hp1 Hd.
    assert (E : forall t, p1 t = q x + 2 * (t - x) * q2 t + (t - x) * (t - x) * r2 t).
    { intros t. assert (K : is_derive p t (q x + 2 * (t - x) * q2 t + (t - x) * (t - x) * r2 t)).
      { apply (is_derive_ext (fun t => p x + (t - x) * (q x + (t - x) * q2 t))); [intros u; rewrite <- P2; symmetry; apply P1|].
        auto_derive; [eexists; apply D2|]. replace (Derive (fun x0 => q2 x0) t) with (r2 t) by (symmetry; apply is_derive_unique, D2). ring. }
      apply is_derive_unique in K. rewrite <- K. symmetry. apply is_derive_unique, Hp1. }
    assert (K : is_derive p1 x (2 * q2 x)).
    { apply (is_derive_ext (fun t => q x + 2 * (t - x) * q2 t + (t - x) * (t - x) * r2 t)); [intros t; symmetry; apply E|].
      assert (D3 : is_derive r2 x (peval (pder (pder (pdiv (pdiv c x) x))) x)) by apply is_derive_peval.
      auto_derive; [split; [eexists; apply D2|split; [eexists; apply D3|auto]]|]. ring. }
    apply is_derive_unique in K. rewrite <- K. symmetry. apply is_derive_unique, Hd.
Qed.

Variable p : R -> R.
Hypothesis Hp : is_poly (S n) p.

(** the formulas of the code *)
Lemma deriv1_off x (d : R) : off x -> is_derive p x d ->
  sumn (S n) (fun j => lam j / (x - X j) * (p x - p (X j)) / (x - X j)) / sumn (S n) (fun j => lam j / (x - X j)) = d.
Proof.
  intros Hx Hd. destruct (divided p x Hp) as (q & q2 & Q1 & Q2 & P1 & P2 & D & _). apply is_derive_unique in D. apply is_derive_unique in Hd. rewrite <- Hd, D.
  rewrite <- (off_sum (fun j => q (X j)) q x Hx) by (auto; eapply is_poly_le; eauto; lia). f_equal. apply sumn_ext. intros j Hj. rewrite (P1 (X j)). field. intros E. apply (Hx j Hj). lra.
Qed.
Lemma deriv2_off x (d : R) (p1 : R -> R) (d2 : R) : off x -> is_derive p x d -> (forall t, is_derive p t (p1 t)) -> is_derive p1 x d2 ->
  sumn (S n) (fun j => lam j / (x - X j) * (2 / (x - X j)) * (d + (p (X j) - p x) / (x - X j))) / sumn (S n) (fun j => lam j / (x - X j)) = d2.
Proof.
  intros Hx Hd Hp1 Hd2. destruct (divided p x Hp) as (q & q2 & Q1 & Q2 & P1 & P2 & D & DD). rewrite (DD p1 d2 Hp1 Hd2).
  assert (d = q x) as -> by (apply is_derive_unique in D; apply is_derive_unique in Hd; lra).
  rewrite <- (off_sum (fun j => 2 * q2 (X j)) (fun t => 2 * q2 t) x Hx); [|apply is_poly_scal; eapply is_poly_le; eauto; lia|auto]. f_equal. apply sumn_ext. intros j Hj. rewrite (P1 (X j)), (P2 (X j)). field. intros E. apply (Hx j Hj). lra.
Qed.
Lemma node_ne k j : (k < S n)%nat -> (j < S n)%nat -> j <> k -> X k - X j <> 0.
Proof. intros Hk Hj N E. apply N, HX; auto. lra. Qed.

Lemma deriv1_at k (d : R) : (k < S n)%nat -> is_derive p (X k) d -> sumx k (fun j => lam j / lam k / (X k - X j) * (p (X k) - p (X j))) = - d.
Proof.
  intros Hk Hd. destruct (divided p (X k) Hp) as (q & q2 & Q1 & Q2 & P1 & P2 & D & _). assert (d = q (X k)) as -> by (apply is_derive_unique in D; apply is_derive_unique in Hd; lra).
  rewrite <- at_sum by auto. apply sumx_ext. intros j Hj N. rewrite (P1 (X j)). pose proof (lam_nonzero k Hk). pose proof (node_ne k j Hk Hj N). field. auto.
Qed.
Lemma deriv2_at k (p1 : R -> R) (d2 : R) : (k < S n)%nat -> (forall t, is_derive p t (p1 t)) -> is_derive p1 (X k) d2 ->
  let d1kk := - sumx k (fun j => lam j / lam k / (X k - X j)) in
  sumx k (fun j => lam j / lam k / (X k - X j) * (d1kk - 1 / (X k - X j)) * (p (X k) - p (X j))) = - d2 / 2.
Proof.
  intros Hk Hp1 Hd2 d1kk. destruct (divided p (X k) Hp) as (q & q2 & Q1 & Q2 & P1 & P2 & D & DD). rewrite (DD p1 d2 Hp1 Hd2).
  transitivity (sumx k (fun j => d1kk * (lam j / lam k * q (X j)) + ((- q (X k)) * (lam j / lam k / (X k - X j)) + lam j / lam k * q2 (X j)))).
  - apply sumx_ext. intros j Hj N. rewrite (P1 (X j)). rewrite (P2 (X j)). pose proof (lam_nonzero k Hk). pose proof (node_ne k j Hk Hj N). field. auto.
  - rewrite !sumx_plus, !sumx_scal. rewrite !at_sum by auto. unfold d1kk. field.
Qed.

End Bary.

(* ------------------------------------------------------------------ *)
(** * The constructor *)

Definition node (s : lagrange) (k : nat) : R := nth k (lg_xx s) 0.

(** off-diagonal entries of the derivative matrices *)
Definition v1 (n : nat) (X lam : nat -> R) (k j : nat) : R := lam j / lam k / (X k - X j).
Definition mat1 (n : nat) (X lam : nat -> R) (k j : nat) : R := if (k =? j)%nat then - sumx n k (v1 n X lam k) else v1 n X lam k j.
Definition v2 (n : nat) (X lam : nat -> R) (k j : nat) : R := 2 * v1 n X lam k j * (mat1 n X lam k k - 1 / (X k - X j)).
Definition mat2 (n : nat) (X lam : nat -> R) (k j : nat) : R := if (k =? j)%nat then - sumx n k (v2 n X lam k) else v2 n X lam k j.

Record lg_ok (s : lagrange) : Prop := {
  ok_nn : (1 <= lg_nn s)%nat;
  ok_np : lg_npoint s = S (lg_nn s);
  ok_lx : length (lg_xx s) = S (lg_nn s);
  ok_ll : length (lg_lambda s) = S (lg_nn s);
  ok_sorted : forall i j, (i < j <= lg_nn s)%nat -> node s i < node s j;
  ok_range : forall i, (i <= lg_nn s)%nat -> -1 <= node s i <= 1;
  ok_lambda : exists C, C <> 0 /\ forall j, (j < S (lg_nn s))%nat -> nth j (lg_lambda s) 0 = C / wt (lg_nn s) (node s) j;
  ok_eta : no_eta_normalization (lg_params s) = false -> length (lg_eta s) = S (lg_nn s) /\
    forall j, (j < S (lg_nn s))%nat -> nth j (lg_eta s) 0 = sumx (lg_nn s) j (fun k => ln (Rabs (node s j - node s k)));
  ok_dd1 : d_nrow (lg_dd1 s) = 0%nat \/ entries (S (lg_nn s)) (lg_dd1 s) (mat1 (lg_nn s) (node s) (fun j => nth j (lg_lambda s) 0));
  ok_dd2 : d_nrow (lg_dd2 s) = 0%nat \/ entries (S (lg_nn s)) (lg_dd2 s) (mat2 (lg_nn s) (node s) (fun j => nth j (lg_lambda s) 0))
}.

Lemma sorted_distinct n (X : nat -> R) : (forall i j, (i < j <= n)%nat -> X i < X j) -> forall i j, (i < S n)%nat -> (j < S n)%nat -> X i = X j -> i = j.
Proof.
  intros H i j Hi Hj E. destruct (Nat.lt_trichotomy i j) as [L|[L|L]]; auto; exfalso; [pose proof (H i j ltac:(lia))|pose proof (H j i ltac:(lia))]; lra.
Qed.
Lemma sorted_steps n (X : nat -> R) : (forall i, (i < n)%nat -> X i < X (S i)) -> forall i j, (i < j <= n)%nat -> X i < X j.
Proof.
  intros H i j (L & Hj). induction j as [|j IH]; [lia|]. destruct (Nat.eq_dec i j) as [->|N]; [apply H; lia|]. apply Rlt_trans with (X j); [apply IH; lia|apply H; lia].
Qed.

Lemma loop_skip n k (F : nat -> R) (f : nat -> R -> res R) : (forall j sum, (j < S n)%nat -> j <> k -> f j sum = Ok (sum + F j)) ->
  for_range 0 (S n) (fun j sum => if (j =? k)%nat then Ok sum else f j sum) 0 = Ok (sumx n k F).
Proof.
  intros H. unfold sumx. apply (for_range_val (fun h => sumn h (fun j => if (j =? k)%nat then 0 else F j))); [lia|reflexivity|].
  intros i Hi. cbn [sumn]. destruct (Nat.eqb_spec i k); [f_equal; lra|]. apply H; lia || auto.
Qed.

Lemma lambda_direct_ok n xx : length xx = S n -> let X := fun k => nth k xx 0 in (forall j, (j < S n)%nat -> wt n X j <> 0) ->
  exists l, lg_lambda_direct (S n) xx = Ok l /\ length l = S n /\ forall j, (j < S n)%nat -> nth j l 0 = 1 / wt n X j.
Proof.
  intros L X Hw. unfold lg_lambda_direct.
  match goal with |- context [for_range 0 (S n) ?f (repeat 0 (S n))] => destruct (for_range_inv (fun h l => length l = S n /\ forall j, (j < h)%nat -> nth j l 0 = 1 / wt n X j) f 0 (S n) (repeat 0 (S n))) as (l & E & Ll & V) end.
  - lia.
  - rewrite repeat_length. split; auto. lia.
  - intros j l Hj (Ll & V). rewrite (for_range_val (fun h => prodn h (fun k => if (k =? j)%nat then 1 else X j - X k)) 0 (S n)).
    + cbn [bind]. rewrite vset_ok by lia. eexists. split; [reflexivity|]. rewrite upd_length. split; auto. intros i Hi. destruct (Nat.eq_dec i j) as [->|]; [rewrite nth_upd_eq by lia; reflexivity|]. rewrite nth_upd_ne by lia. apply V. lia.
    + lia.
    + reflexivity.
    + intros k Hk. cbn [prodn]. destruct (Nat.eqb_spec k j); [f_equal; ring|]. do 2 (rewrite (vget_ok _ _ 0) by lia; cbn [bind]). reflexivity.
  - eauto.
Qed.

Lemma calc_eta_ok n xx : length xx = S n -> let X := fun k => nth k xx 0 in
  exists l, lg_calc_eta (S n) xx = Ok l /\ length l = S n /\ forall j, (j < S n)%nat -> nth j l 0 = sumx n j (fun k => ln (Rabs (X j - X k))).
Proof.
  intros L X. unfold lg_calc_eta.
  match goal with |- context [for_range 0 (S n) ?f (repeat 0 (S n))] => destruct (for_range_inv (fun h l => length l = S n /\ (forall j, (j < h)%nat -> nth j l 0 = sumx n j (fun k => ln (Rabs (X j - X k)))) /\ forall j, (h <= j < S n)%nat -> nth j l 0 = 0) f 0 (S n) (repeat 0 (S n))) as (l & E & Ll & V & _) end.
  - lia.
  - rewrite repeat_length. splits; auto; [lia|]. intros j Hj. apply nth_repeat_lt. lia.
  - intros j l Hj (Ll & V & Z). 
    match goal with |- context [for_range 0 (S n) ?f l] => destruct (for_range_inv (fun h l' => l' = upd l j (sumn h (fun k => if (k =? j)%nat then 0 else ln (Rabs (X j - X k))))) f 0 (S n) l) as (l' & E & V') end.
    + lia.
    + cbn [sumn]. apply nth_ext with 0 0; [now rewrite upd_length|]. intros i Hi. destruct (Nat.eq_dec i j) as [->|]; [rewrite nth_upd_eq by lia; apply Z; lia|]. now rewrite nth_upd_ne by lia.
    + intros k l' Hk ->. cbn [sumn]. destruct (Nat.eqb_spec k j) as [->|N]; [eexists; split; [reflexivity|]; f_equal; ring|].
      do 2 (rewrite (vget_ok _ _ 0) by lia; cbn [bind]). rewrite (vget_ok _ _ 0) by (rewrite upd_length; lia). cbn [bind]. rewrite nth_upd_eq by lia. rewrite vset_ok by (rewrite upd_length; lia). eexists. split; [reflexivity|].
      apply nth_ext with 0 0; [now rewrite !upd_length|]. intros i Hi. rewrite !upd_length in Hi. destruct (Nat.eq_dec i j) as [->|]; [rewrite !nth_upd_eq by (rewrite ?upd_length; lia); reflexivity|]. now rewrite !nth_upd_ne by lia.
    + rewrite E. eexists. split; [reflexivity|]. rewrite V', upd_length. splits; auto.
      * intros i Hi. destruct (Nat.eq_dec i j) as [->|]; [rewrite nth_upd_eq by lia; reflexivity|]. rewrite nth_upd_ne by lia. apply V. lia.
      * intros i Hi. rewrite nth_upd_ne by lia. apply Z. lia.
  - eauto.
Qed.

(** the products have the sign (-1)^(n-j) on sorted nodes *)
Lemma neg_pow_nat m : neg_one_pow_n (Z.of_nat m) = (-1) ^ m.
Proof. rewrite C32_neg_one_pow_n. symmetry. apply pow_powerRZ. Qed.
Lemma pow_m1 m : (-1) ^ m = 1 \/ (-1) ^ m = -1.
Proof. induction m as [|m [IH|IH]]; cbn; rewrite ?IH; lra. Qed.
Lemma pow_m1_sq m : (-1) ^ m * (-1) ^ m = 1.
Proof. destruct (pow_m1 m) as [->| ->]; lra. Qed.

Lemma wt_sign_aux n (X : nat -> R) j : (j < S n)%nat -> (forall i k, (i < k <= n)%nat -> X i < X k) -> forall m, (m <= S n)%nat ->
  prodn m (fun k => if (k =? j)%nat then 1 else X j - X k) = (-1) ^ (m - 1 - j) * exp (sumn m (fun k => if (k =? j)%nat then 0 else ln (Rabs (X j - X k)))).
Proof.
  intros Hj Hs. induction m as [|m IH]; intros Hm; [cbn; rewrite exp_0; ring|]. cbn [prodn sumn]. rewrite IH by lia. rewrite exp_plus.
  destruct (Nat.lt_trichotomy m j) as [L|[->|L]].
  - destruct (Nat.eqb_spec m j); [lia|]. pose proof (Hs m j ltac:(lia)). rewrite exp_ln by (apply Rabs_pos_lt; lra). rewrite Rabs_pos_eq by lra. replace (m - 1 - j)%nat with 0%nat by lia. replace (S m - 1 - j)%nat with 0%nat by lia. ring.
  - rewrite Nat.eqb_refl, exp_0. replace (j - 1 - j)%nat with 0%nat by lia. replace (S j - 1 - j)%nat with 0%nat by lia. ring.
  - destruct (Nat.eqb_spec m j); [lia|]. pose proof (Hs j m ltac:(lia)). rewrite exp_ln by (apply Rabs_pos_lt; lra). rewrite Rabs_left by lra. replace (S m - 1 - j)%nat with (S (m - 1 - j))%nat by lia. cbn [pow]. ring.
Qed.
Lemma wt_sign n X j : (j < S n)%nat -> (forall i k, (i < k <= n)%nat -> X i < X k) -> wt n X j = (-1) ^ (j + n) * exp (sumx n j (fun k => ln (Rabs (X j - X k)))).
Proof.
  intros Hj Hs. unfold wt. rewrite (wt_sign_aux n X j Hj Hs) by lia. fold (sumx n j (fun k => ln (Rabs (X j - X k)))). f_equal.
  replace (j + n)%nat with ((S n - 1 - j) + (j + j))%nat by lia. rewrite (pow_add _ _ (j + j)), (pow_add _ j j), pow_m1_sq. ring.
Qed.

Lemma lambda_eta_ok n cutoff eta (e : nat -> R) : (1 <= n)%nat -> length eta = S n -> (forall j, (j < S n)%nat -> nth j eta 0 = e j) ->
  exists l C, lg_lambda_eta n (S n) cutoff eta = Ok l /\ length l = S n /\ C <> 0 /\ forall j, (j < S n)%nat -> nth j l 0 = C * ((-1) ^ (j + n) * exp (- e j)).
Proof.
  intros Hn L He. unfold lg_lambda_eta. assert (Hp : 0 < INR n) by (apply (lt_INR 0); lia).
  set (C := if (cutoff <? n)%nat then / (Rpower 2 (INR n / 3) * Rpower 2 (INR n / 3) * (Rpower 2 (INR n / 3 - 1) / INR n)) else / (Rpower 2 (INR n - 1) / INR n)).
  assert (HR : forall y, Rpower 2 y <> 0) by (intros y; unfold Rpower; pose proof (exp_pos (y * ln 2)); lra).
  assert (HC : C <> 0).
  { unfold C. assert (A : forall y, Rpower 2 y / INR n <> 0) by (intros y; unfold Rdiv; apply Rmult_integral_contrapositive; split; auto; apply Rinv_neq_0_compat; lra).
    destruct (cutoff <? n)%nat; apply Rinv_neq_0_compat; auto. }
  assert (W : exists l, (let '(c0, c1, c2) := if (cutoff <? n)%nat then (Rpower 2 (INR n / 3), Rpower 2 (INR n / 3), Rpower 2 (INR n / 3 - 1) / INR n) else (Rpower 2 (INR n - 1) / INR n, 0, 0) in
    for_range 0 (S n) (fun j lambda =>
    let aj := neg_one_pow_n (Z.of_nat (j + n)) in
    e <- vget eta j ;;
    let mj := - e in
    if (cutoff <? n)%nat then
      let bj := exp (mj / 3) in
      lambda <- vset lambda j (aj * bj / c0) ;;
      l <- vget lambda j ;;
      lambda <- vset lambda j (l * (bj / c1)) ;;
      l <- vget lambda j ;;
      vset lambda j (l * (bj / c2))
    else
      let bj := exp mj in
      vset lambda j (aj * bj / c0)) (repeat 0 (S n))) = Ok l /\ length l = S n /\ forall j, (j < S n)%nat -> nth j l 0 = C * ((-1) ^ (j + n) * exp (- e j))).
  { unfold C in *. clear C. destruct (cutoff <? n)%nat;
    (match goal with |- context [for_range 0 (S n) ?f (repeat 0 (S n))] => match goal with |- context [nth _ _ 0 = ?c * _] => destruct (for_range_inv (fun h l => length l = S n /\ forall j, (j < h)%nat -> nth j l 0 = c * ((-1) ^ (j + n) * exp (- e j))) f 0 (S n) (repeat 0 (S n))) as (l & E & Ll & V) end end;
      [lia|rewrite repeat_length; split; auto; lia| |exists l; splits; auto]);
    intros j l Hj (Ll & V); cbv zeta; rewrite (vget_ok _ _ 0) by lia; cbn [bind]; rewrite He by lia; rewrite vset_ok by lia; cbn [bind].
    - rewrite (vget_ok _ _ 0) by (rewrite upd_length; lia). cbn [bind]. rewrite vset_ok by (rewrite upd_length; lia). cbn [bind]. rewrite (vget_ok _ _ 0) by (rewrite !upd_length; lia). cbn [bind]. rewrite vset_ok by (rewrite !upd_length; lia).
      eexists. split; [reflexivity|]. rewrite !upd_length. split; auto. intros i Hi. destruct (Nat.eq_dec i j) as [->|]; [|rewrite !nth_upd_ne by lia; apply V; lia]. rewrite !nth_upd_eq by (rewrite ?upd_length; lia).
      rewrite neg_pow_nat. replace (exp (- e j)) with (exp (- e j / 3) * exp (- e j / 3) * exp (- e j / 3)) by (rewrite <- !exp_plus; f_equal; field). 
      pose proof (HR (INR n / 3)). pose proof (HR (INR n / 3 - 1)). field. splits; auto; lra.
    - eexists. split; [reflexivity|]. rewrite !upd_length. split; auto. intros i Hi. destruct (Nat.eq_dec i j) as [->|]; [|rewrite !nth_upd_ne by lia; apply V; lia]. rewrite !nth_upd_eq by lia.
      rewrite neg_pow_nat. pose proof (HR (INR n - 1)). field. splits; auto; lra. }
  destruct W as (l & E & Ll & V). exists l, C. splits; auto.
Qed.

(** the documented nodes *)
Definition grid_node (g : interp_grid) (n i : nat) : R :=
  match g with
  | Uniform => -1 + 2 * INR i / INR n
  | ChebyshevGauss => - cos (INR (2 * i + 1) * PI / (2 * INR n + 2))
  | ChebyshevGaussLobatto => - cos (PI * INR i / INR n)
  end.

Lemma points_ok g n : (1 <= n)%nat -> exists xx, lg_points g n (S n) = Ok xx /\ length xx = S n /\
  (forall i j, (i < j <= n)%nat -> nth i xx 0 < nth j xx 0) /\ (forall i, (i <= n)%nat -> -1 <= nth i xx 0 <= 1) /\
  (forall i, (i <= n)%nat -> nth i xx 0 = grid_node g n i) /\ (g <> ChebyshevGauss -> nth 0 xx 0 = -1 /\ nth n xx 0 = 1).
Proof.
  intros Hn. assert (Hp : 0 < INR n) by (apply (lt_INR 0); lia). destruct g; cbn [lg_points].
  - destruct (C16_linspace_R (-1) 1 (S n)) as (xx & E & L & E0 & E1 & St). rewrite E. cbn [unwrap]. exists xx. specialize (E0 ltac:(lia)). specialize (E1 ltac:(lia)). replace (S n - 1)%nat with n in * by lia.
    assert (S1 : forall i j, (i < j <= n)%nat -> nth i xx 0 < nth j xx 0).
    { apply sorted_steps. intros i Hi. pose proof (St i ltac:(lia)) as K. rewrite Nat.add_1_r in K. assert (0 < (1 - -1) / INR n) by (apply Rdiv_lt_0_compat; lra). lra. }
    splits; auto.
    + intros i Hi. split; [rewrite <- E0|rewrite <- E1]; destruct (Nat.eq_dec i 0), (Nat.eq_dec i n); subst; try lra; left; apply S1; lia.
    + intros i. cbn [grid_node]. induction i as [|i IH]; intros Hi; [rewrite E0; cbn; field; lra|]. pose proof (St i ltac:(lia)) as K. rewrite Nat.add_1_r in K. rewrite IH in K by lia. rewrite S_INR. apply Rplus_eq_reg_r with (- (-1 + 2 * INR i / INR n)). unfold Rminus in K. rewrite K. field. lra.
  - destruct (C29_gauss_points n) as (xx & E & L & V). destruct (C29_gauss_sorted n xx E) as (S1 & S2). exists xx. splits; auto; try lia.
    + now apply sorted_steps.
    + intros i Hi. destruct (S2 i Hi) as (S3 & _). lra.
    + intros K. now elim K.
  - destruct (C29_lobatto_points n Hn) as (xx & E & L & V). destruct (C29_lobatto_sorted n xx Hn E) as (S0 & S1 & S2 & _). exists xx. splits; auto; try lia.
    + now apply sorted_steps.
    + intros i Hi. rewrite V by auto. pose proof (COS_bound (PI * INR i / INR n)). lra.
Qed.

(** C30: the constructor succeeds exactly for degrees from 1 to 2048 and at
    least two stations, and builds the documented nodes *)
Theorem C30_new nn params : let par := match params with Some p => p | None => ip_default end in
  ((exists s, lg_new nn params = Ok s) <-> (1 <= nn <= N.to_nat 2048)%nat /\ (2 <= lebesgue_estimate_nstation par)%nat /\ (2 <= error_estimate_nstation par)%nat) /\
  lg_new nn params <> Panic /\
  forall s, lg_new nn params = Ok s -> lg_ok s /\ lg_nn s = nn /\ lg_params s = par /\ (forall i, (i <= nn)%nat -> node s i = grid_node (grid_type par) nn i) /\
    (grid_type par <> ChebyshevGauss -> node s 0 = -1 /\ node s nn = 1).
Proof.
  intros par. unfold lg_new. fold par.
  destruct (Nat.ltb_spec nn 1); [cbn [orb]; splits; [split; [intros (? & [=])|intros; lia]|discriminate|discriminate]|].
  destruct (Nat.ltb_spec (N.to_nat 2048) nn); [cbn [orb]; splits; [split; [intros (? & [=])|intros; lia]|discriminate|discriminate]|]. cbn [orb]. unfold ip_validate.
  destruct (Nat.ltb_spec (lebesgue_estimate_nstation par) 2); [cbn [bind]; splits; [split; [intros (? & [=])|intros; lia]|discriminate|discriminate]|].
  destruct (Nat.ltb_spec (error_estimate_nstation par) 2); [cbn [bind]; splits; [split; [intros (? & [=])|intros; lia]|discriminate|discriminate]|]. cbn [bind]. cbv zeta.
  rewrite Nat.add_1_r. destruct (points_ok (grid_type par) nn ltac:(lia)) as (xx & -> & L & S1 & Rg & Gn & Ge). cbn [bind].
  set (X := fun k => nth k xx 0). pose proof (sorted_distinct nn X S1) as Dx. pose proof (fun j => wt_nonzero nn X Dx j) as Wz.
  destruct (no_eta_normalization par) eqn:Ne.
  - destruct (lambda_direct_ok nn xx L Wz) as (l & -> & Ll & V). cbn [bind]. splits; [split; eauto; intros _; splits; auto|discriminate|]. intros s E. injection E as <-. splits; auto.
    constructor; unfold node; cbn [lg_nn lg_npoint lg_xx lg_lambda lg_params lg_eta lg_dd1 lg_dd2]; auto. exists 1. split; [lra|]. intros j Hj. now apply V. intros K; congruence.
  - destruct (calc_eta_ok nn xx L) as (e & -> & Le & Ve). cbn [bind]. destruct (lambda_eta_ok nn (eta_cutoff par) e _ ltac:(lia) Le Ve) as (l & C & -> & Ll & HC & Vl). cbn [bind].
    splits; [split; eauto; intros _; splits; auto|discriminate|]. intros s E. injection E as <-. splits; auto.
    constructor; unfold node; cbn [lg_nn lg_npoint lg_xx lg_lambda lg_params lg_eta lg_dd1 lg_dd2]; auto. exists C. split; auto. intros j Hj. rewrite Vl by auto. fold X. rewrite (wt_sign nn X j Hj S1).
    cbv beta delta [X]. rewrite exp_Ropp. pose proof (pow_m1_sq (j + nn)) as Sq. set (sg := (-1) ^ (j + nn)) in *. assert (sg <> 0) by (intros Z; rewrite Z in Sq; lra).
    match goal with |- context [exp ?y] => pose proof (exp_pos y); set (w := exp y) in * end.
    apply Rmult_eq_reg_r with (sg * w); [|apply Rmult_integral_contrapositive; split; auto; lra]. transitivity (C * (sg * sg)); [|rewrite Sq; clearbody sg w; field; split; [lra|auto]]. clearbody sg w. field. lra.
Qed.

(* ------------------------------------------------------------------ *)
(** * Evaluation *)

Lemma DX_pos : 0 < DX_EPSILON.
Proof. unfold DX_EPSILON, FEPS. apply Rmult_lt_0_compat; [lra|]. apply Rinv_0_lt_compat. apply pow_lt. lra. Qed.

(** x is a node, or differs from each node by at least the tolerance of the code *)
Definition clear_of_nodes (s : lagrange) (x : R) : Prop :=
  -1 <= x <= 1 /\ forall k, (k <= lg_nn s)%nat -> x = node s k \/ DX_EPSILON <= Rabs (x - node s k).

Section Eval.
Variable s : lagrange.
Hypothesis OK : lg_ok s.
Let n := lg_nn s.
Let X := node s.
Let lam := fun j => nth j (lg_lambda s) 0.

Lemma HX : forall i j, (i < S n)%nat -> (j < S n)%nat -> X i = X j -> i = j.
Proof. apply sorted_distinct. apply OK. Qed.
Lemma Hout : exists x, off n X x.
Proof. exists 2. intros k Hk E. pose proof (ok_range s OK k ltac:(unfold n in Hk; lia)) as K. fold X in K. lra. Qed.
Lemma get_x k : (k < S n)%nat -> vget (lg_xx s) k = Ok (X k).
Proof. intros H. apply (vget_ok _ _ 0). rewrite (ok_lx s OK). exact H. Qed.
Lemma get_l k : (k < S n)%nat -> vget (lg_lambda s) k = Ok (lam k).
Proof. intros H. apply (vget_ok _ _ 0). rewrite (ok_ll s OK). exact H. Qed.

Lemma off_or_node x : off n X x \/ exists i, (i < S n)%nat /\ x = X i.
Proof.
  unfold off. generalize (S n) as m. induction m as [|m IH]; [left; intros; lia|]. destruct IH as [IH|(i & Hi & E)]; [|right; exists i; split; auto].
  destruct (Req_dec x (X m)) as [E|N]; [right; exists m; split; auto|]. left. intros k Hk. destruct (Nat.eq_dec k m) as [->|]; auto. apply IH. lia.
Qed.

Lemma sum_off x : off n X x -> lg_sum s x = Ok (Some (sumn (S n) (fun k => lam k / (x - X k)))).
Proof.
  intros H. unfold lg_sum. rewrite (ok_np s OK). fold n. apply (for_range_val (fun h => Some (sumn h (fun k => lam k / (x - X k))))); [lia|reflexivity|].
  intros k Hk. rewrite get_l, get_x by lia. cbn [bind]. destruct (Reqb_spec x (X k)) as [E|]; [elim (H k); auto; lia|]. reflexivity.
Qed.
Lemma sum_node i : (i < S n)%nat -> lg_sum s (X i) = Ok None.
Proof.
  intros Hi. unfold lg_sum. rewrite (ok_np s OK). fold n.
  match goal with |- for_range 0 (S n) ?f ?s0 = _ => destruct (for_range_inv (fun h o => (i < h)%nat -> o = @None R) f 0 (S n) s0) as (o & E & V) end.
  - lia.
  - lia.
  - intros k o Hk V. rewrite get_l, get_x by lia. cbn [bind]. eexists. split; [reflexivity|]. intros L. destruct o as [v|]; auto. destruct (Nat.eq_dec i k) as [->|N]; [|discriminate (V ltac:(lia))]. destruct (Reqb_spec (X k) (X k)); [auto|lra].
  - rewrite E, V by lia. reflexivity.
Qed.

Lemma psi_off j x : (j < S n)%nat -> -1 <= x <= 1 -> off n X x -> DX_EPSILON <= Rabs (x - X j) -> lg_psi s j x = Ok (ell n X j x).
Proof.
  intros Hj Hx Ho Hd. unfold lg_psi. fold n. destruct (Nat.ltb_spec n j); [lia|]. destruct (Rltb_spec x (-1)); [lra|]. destruct (Rltb_spec 1 x); [lra|]. cbn [orb]. rewrite get_x by lia. cbn [bind].
  destruct (ok_lambda s OK) as (C & HC & Hl). fold n X in Hl. destruct (Rltb_spec (Rabs (x - X j)) DX_EPSILON) as [L|L]; [lra|].
  rewrite sum_off by auto. cbn [bind]. rewrite get_l by lia. cbn [bind]. f_equal. apply (bary_value n X HX C HC lam Hl); auto.
Qed.

(** C30: psi_j is the j-th cardinal polynomial *)
Theorem C30_psi j x : (j <= lg_nn s)%nat -> clear_of_nodes s x -> lg_psi s j x = Ok (ell (lg_nn s) (node s) j x).
Proof.
  fold n X. intros Hj (Hx & Hc). unfold lg_psi. fold n. destruct (Nat.ltb_spec n j); [lia|]. destruct (Rltb_spec x (-1)); [lra|]. destruct (Rltb_spec 1 x); [lra|]. cbn [orb]. rewrite get_x by lia. cbn [bind].
  destruct (ok_lambda s OK) as (C & HC & Hl). fold n X in Hl. pose proof DX_pos.
  destruct (off_or_node x) as [Ho|(i & Hi & ->)].
  - destruct (Rltb_spec (Rabs (x - X j)) DX_EPSILON) as [L|L].
    + destruct (Hc j Hj) as [E|K]; [elim (Ho j); auto; lia|fold X in K; lra].
    + rewrite sum_off by auto. cbn [bind]. rewrite get_l by lia. cbn [bind]. f_equal. apply (bary_value n X HX C HC lam Hl); auto. lia.
  - rewrite (ell_node n X HX) by lia. unfold delta. destruct (Nat.eqb_spec i j) as [->|N].
    + rewrite Rminus_eq_0, Rabs_R0. destruct (Rltb_spec 0 DX_EPSILON); [auto|lra].
    + destruct (Rltb_spec (Rabs (X i - X j)) DX_EPSILON) as [L|L].
      * destruct (Hc j Hj) as [E|K]; [elim N; apply HX; auto; lia|fold X in K; lra].
      * rewrite sum_node by auto. cbn [bind]. rewrite get_l by lia. reflexivity.
Qed.

(** C30: psi_j is 1 at node j and 0 at the other nodes (nodes farther apart than the tolerance) *)
Theorem C30_cardinal i j : (i <= lg_nn s)%nat -> (j <= lg_nn s)%nat -> clear_of_nodes s (node s i) -> lg_psi s j (node s i) = Ok (if (i =? j)%nat then 1 else 0).
Proof. intros Hi Hj Hc. rewrite C30_psi by auto. f_equal. apply (ell_node n X HX); unfold n; lia. Qed.

(** C30: the psi sum to one *)
Theorem C30_partition x : clear_of_nodes s x -> exists v, (forall j, (j <= lg_nn s)%nat -> lg_psi s j x = Ok (v j)) /\ sumn (S (lg_nn s)) v = 1.
Proof. intros Hc. exists (fun j => ell n X j x). split; [intros j Hj; now apply C30_psi|]. apply (partition n X HX). Qed.

(** C30: eval is the polynomial with the given values at the nodes *)
Theorem C30_eval x uu : length uu = S (lg_nn s) -> clear_of_nodes s x ->
  lg_eval s x uu = Ok (sumn (S (lg_nn s)) (fun j => nth j uu 0 * ell (lg_nn s) (node s) j x)).
Proof.
  intros L Hc. unfold lg_eval. pose proof Hc as (Hx & _). destruct (Rltb_spec x (-1)); [lra|]. destruct (Rltb_spec 1 x); [lra|]. cbn [orb]. rewrite (ok_np s OK). rewrite L, Nat.eqb_refl. cbn [negb].
  apply (for_range_val (fun h => sumn h (fun j => nth j uu 0 * ell (lg_nn s) (node s) j x))); [lia|reflexivity|]. intros j Hj. rewrite (vget_ok _ _ 0) by lia. cbn [bind]. rewrite C30_psi by (auto; lia). reflexivity.
Qed.

(** C30: eval reproduces every polynomial of degree at most N *)
Theorem C30_polynomial p x uu : is_poly (S (lg_nn s)) p -> length uu = S (lg_nn s) -> (forall j, (j <= lg_nn s)%nat -> nth j uu 0 = p (node s j)) -> clear_of_nodes s x ->
  lg_eval s x uu = Ok (p x).
Proof.
  intros Hp L Hu Hc. rewrite C30_eval by auto. f_equal. fold n X in Hp |- *. rewrite (interpolate n X HX p x Hp). apply sumn_ext. intros j Hj. rewrite Hu by (unfold n in Hj; lia). reflexivity.
Qed.

(** C30: the estimate of the Lebesgue constant is the largest sum of |psi_i| over
    the equally spaced stations of [-1, 1] *)
Theorem C30_lebesgue : let ns := lebesgue_estimate_nstation (lg_params s) in let station := fun j => -1 + 2 * INR j / INR (ns - 1) in
  let size := fun x => sumn (S (lg_nn s)) (fun i => Rabs (ell (lg_nn s) (node s) i x)) in
  (2 <= ns)%nat -> (forall j, (j < ns)%nat -> clear_of_nodes s (station j)) ->
  exists v, lg_estimate_lebesgue s = Ok v /\ (forall j, (j < ns)%nat -> size (station j) <= v) /\ exists j, (j < ns)%nat /\ v = size (station j).
Proof.
  intros ns station size H2 Hc. unfold lg_estimate_lebesgue. fold ns.
  match goal with |- exists v, for_range 0 ns ?f 0 = _ /\ _ =>
    destruct (for_range_inv (fun h v => (forall j, (j < h)%nat -> size (station j) <= v) /\ ((h = 0%nat /\ v = 0) \/ exists j, (j < h)%nat /\ v = size (station j))) f 0 ns 0) as (v & E & Q1 & Q2) end.
  - lia.
  - split; [intros; lia|auto].
  - intros j acc Hj (Q1 & Q2). cbv beta. replace (usub ns 1) with (Ok (ns - 1)%nat) by (unfold usub; destruct (Nat.leb_spec 1 ns); [reflexivity|lia]). cbn [bind].
    change (-1 + 2 * INR j / INR (ns - 1)) with (station j). rewrite C30_psi by (try lia; apply Hc; lia). cbn [unwrap bind].
    rewrite (for_range_val (fun h => sumn h (fun i => Rabs (ell (lg_nn s) (node s) i (station j))))).
    + rewrite (ok_np s OK). cbn [bind]. fold (size (station j)). eexists. split; [reflexivity|].
      assert (0 <= size (station j)) by (apply sumn_nonneg; intros; apply Rabs_pos).
      destruct (Rltb_spec acc (size (station j))) as [L|L].
      * split; [|right; exists j; auto]. intros k Hk. destruct (Nat.eq_dec k j) as [->|]; [lra|]. apply Rle_trans with acc; [apply Q1; lia|lra].
      * split; [intros k Hk; destruct (Nat.eq_dec k j) as [->|]; [lra|apply Q1; lia]|].
        destruct Q2 as [(-> & ->)|(k & Hk & ->)]; right; [exists 0%nat; split; [lia|lra]|exists k; split; auto].
    + rewrite (ok_np s OK). lia.
    + cbn [sumn]. ring.
    + intros i Hi. rewrite (ok_np s OK) in Hi. rewrite C30_psi by (try lia; apply Hc; lia). reflexivity.
  - exists v. splits; auto. destruct Q2 as [(? & _)|Q2]; [lia|auto].
Qed.

(* ------------------------------------------------------------------ *)
(** * Derivatives *)

(** eval_deriv1 and eval_deriv2 take x = -1 and x = 1 for the first and the last node *)
Definition ends_ok (x : R) : Prop := -1 < x < 1 \/ (node s 0 = -1 /\ node s (lg_nn s) = 1).

Lemma find_ok x : clear_of_nodes s x -> forall count j, (j + count = S n)%nat -> (forall k, (k < j)%nat -> x <> X k) ->
  (exists k, (k < S n)%nat /\ x = X k /\ lg_find (lg_xx s) x count j = Ok (Some k)) \/ (off n X x /\ lg_find (lg_xx s) x count j = Ok None).
Proof.
  intros (Hx & Hc). pose proof DX_pos. induction count as [|c IH]; intros j Hj Hk; cbn [lg_find].
  - right. split; auto. intros k K. apply Hk. lia.
  - rewrite get_x by lia. cbn [bind]. destruct (Rltb_spec (Rabs (x - X j)) DX_EPSILON) as [L|L].
    + left. exists j. splits; auto; [lia|]. destruct (Hc j ltac:(unfold n in Hj; lia)) as [E|K]; [exact E|fold X in K; lra].
    + apply IH; [lia|]. intros k K. destruct (Nat.eq_dec k j) as [->|]; [|apply Hk; lia]. intros E. rewrite E, Rminus_eq_0, Rabs_R0 in L. lra.
Qed.

Lemma at_node_ok x : clear_of_nodes s x -> ends_ok x ->
  (exists k, (k < S n)%nat /\ x = X k /\ lg_at_node s x = Ok (Some k)) \/ (off n X x /\ lg_at_node s x = Ok None).
Proof.
  intros Hc He. unfold lg_at_node. rewrite (ok_np s OK). fold n. destruct (Reqb_spec x (-1)) as [E|E].
  - left. destruct He as [He|(E0 & E1)]; [lra|]. exists 0%nat. splits; auto; [lia|]. unfold X. now rewrite E0.
  - destruct (Reqb_spec x 1) as [E'|E']; [|apply find_ok; auto; intros; lia]. left. destruct He as [He|(E0 & E1)]; [lra|]. exists n. splits; auto. unfold X, n. now rewrite E1.
Qed.

Variable p : R -> R.
Hypothesis Hp : is_poly (S (lg_nn s)) p.
Variable uu : list R.
Hypothesis Lu : length uu = S (lg_nn s).
Hypothesis Hu : forall j, (j <= lg_nn s)%nat -> nth j uu 0 = p (node s j).

Lemma get_u k : (k < S n)%nat -> vget uu k = Ok (p (X k)).
Proof. intros H. rewrite (vget_ok _ _ 0) by (rewrite Lu; exact H). now rewrite Hu by (unfold n in H; lia). Qed.

Lemma pair_loop (F G : nat -> R) (f : nat -> R * R -> res (R * R)) : (forall j a b, (j < S n)%nat -> f j (a, b) = Ok (a + F j, b + G j)) ->
  for_range 0 (S n) f (0, 0) = Ok (sumn (S n) F, sumn (S n) G).
Proof. intros H. apply (for_range_val (fun h => (sumn h F, sumn h G))); [lia|reflexivity|]. intros j Hj. now rewrite H by lia. Qed.

Lemma deriv1_code k x (d : R) : -1 <= x <= 1 -> (k < S n)%nat -> lg_at_node s x = Ok (Some k) -> is_derive p (X k) d -> lg_eval_deriv1 s x uu = Ok d.
Proof.
  intros Hx Hk E Hd. unfold lg_eval_deriv1. destruct (Rltb_spec x (-1)); [lra|]. destruct (Rltb_spec 1 x); [lra|]. cbn [orb]. rewrite (ok_np s OK). rewrite Lu, Nat.eqb_refl. cbn [negb]. fold n.
  destruct (ok_lambda s OK) as (C & HC & Hl). fold n X in Hl. change (forall j, (j < S n)%nat -> lam j = C / wt n X j) in Hl.
  rewrite E. cbn [bind].
  rewrite (loop_skip n k (fun j => lam j * (p (X k) - p (X j)) / (X k - X j))).
  - cbn [bind]. rewrite get_l by auto. cbn [bind]. f_equal.
    pose proof (deriv1_at n X HX C HC lam Hl Hout p Hp k d Hk Hd) as K. pose proof (lam_nonzero n X HX C HC lam Hl k Hk) as Ln.
    assert (K2 : sumx n k (fun j => lam j * (p (X k) - p (X j)) / (X k - X j)) = lam k * - d).
    { rewrite <- K, <- sumx_scal. apply sumx_ext. intros j Hj N. pose proof (node_ne n X HX k j Hk Hj N). field. auto. }
    rewrite K2. field. auto.
  - intros j a Hj N. rewrite get_l, !get_u, !get_x by auto. reflexivity.
Qed.

(** C30: eval_deriv1 is the derivative of that polynomial *)
Theorem C30_eval_deriv1 x (d : R) : clear_of_nodes s x -> ends_ok x -> is_derive p x d -> lg_eval_deriv1 s x uu = Ok d.
Proof.
  intros Hc He Hd. pose proof Hc as (Hx & _). destruct (at_node_ok x Hc He) as [(k & Hk & E & A)|(Ho & A)]; [rewrite E in Hd; now apply (deriv1_code k)|].
  unfold lg_eval_deriv1. destruct (Rltb_spec x (-1)); [lra|]. destruct (Rltb_spec 1 x); [lra|]. cbn [orb]. rewrite (ok_np s OK). rewrite Lu, Nat.eqb_refl. cbn [negb]. fold n.
  destruct (ok_lambda s OK) as (C & HC & Hl). fold n X in Hl. change (forall j, (j < S n)%nat -> lam j = C / wt n X j) in Hl.
  rewrite A. cbn [bind]. rewrite (C30_polynomial p x uu Hp Lu Hu Hc). cbn [unwrap bind].
  rewrite (pair_loop (fun j => lam j / (x - X j) * (p x - p (X j)) / (x - X j)) (fun j => lam j / (x - X j))).
  - cbn [bind]. f_equal. apply (deriv1_off n X HX C HC lam Hl p Hp x d Ho Hd).
  - intros j a b Hj. rewrite get_x, get_l, get_u by auto. reflexivity.
Qed.

(** C30: eval_deriv2 is its second derivative *)
Theorem C30_eval_deriv2 x (p1 : R -> R) (d2 : R) : clear_of_nodes s x -> ends_ok x -> (forall t, is_derive p t (p1 t)) -> is_derive p1 x d2 -> lg_eval_deriv2 s x uu = Ok d2.
Proof.
  intros Hc He Hd Hd2. pose proof Hc as (Hx & _). unfold lg_eval_deriv2. destruct (Rltb_spec x (-1)); [lra|]. destruct (Rltb_spec 1 x); [lra|]. cbn [orb]. rewrite (ok_np s OK). rewrite Lu, Nat.eqb_refl. cbn [negb]. fold n.
  destruct (ok_lambda s OK) as (C & HC & Hl). fold n X in Hl. change (forall j, (j < S n)%nat -> lam j = C / wt n X j) in Hl.
  destruct (at_node_ok x Hc He) as [(k & Hk & E & ->)|(Ho & ->)]; cbn [bind].
  - rewrite (loop_skip n k (fun j => lam j / (X k - X j))).
    + cbn [bind]. rewrite get_l by auto. cbn [bind]. cbv zeta. set (d1kk := - sumx n k (fun j => lam j / (X k - X j)) / lam k).
      rewrite (loop_skip n k (fun j => lam j / lam k / (X k - X j) * (d1kk - 1 / (X k - X j)) * (p (X k) - p (X j)))).
      * cbn [bind]. f_equal. rewrite E in Hd2.
        pose proof (deriv2_at n X HX C HC lam Hl Hout p Hp k p1 d2 Hk Hd Hd2) as K. cbv zeta in K. pose proof (lam_nonzero n X HX C HC lam Hl k Hk) as Ln.
        replace (- sumx n k (fun j => lam j / lam k / (X k - X j))) with d1kk in K; [rewrite K; field|].
        unfold d1kk. rewrite (sumx_ext n k (fun j => lam j / lam k / (X k - X j)) (fun j => / lam k * (lam j / (X k - X j)))) by (intros; unfold Rdiv; ring). rewrite sumx_scal. field. auto.
      * intros j a Hj N. rewrite !get_x, get_l, !get_u by auto. reflexivity.
    + intros j a Hj N. rewrite get_l, !get_x by auto. reflexivity.
  - rewrite (C30_polynomial p x uu Hp Lu Hu Hc), (C30_eval_deriv1 x (p1 x) Hc He (Hd x)). cbn [unwrap bind].
    rewrite (pair_loop (fun j => lam j / (x - X j) * (2 / (x - X j)) * (p1 x + (p (X j) - p x) / (x - X j))) (fun j => lam j / (x - X j))).
    + cbn [bind]. f_equal. apply (deriv2_off n X HX C HC lam Hl p Hp x (p1 x) p1 d2 Ho (Hd x) Hd Hd2).
    + intros j a b Hj. rewrite get_x, get_l, get_u by auto. reflexivity.
Qed.

(** the product of a row of the derivative matrices with the data *)
Lemma row_product (v : nat -> nat -> R) k : (k < S n)%nat ->
  sumn (S n) (fun j => (if (k =? j)%nat then - sumx n k (v k) else v k j) * p (X j)) = - sumx n k (fun j => v k j * (p (X k) - p (X j))).
Proof using. clear Hu Lu Hp OK.
  intros Hk. rewrite (sumx_split n k) by auto. rewrite Nat.eqb_refl.
  rewrite (sumx_ext n k (fun j => (if (k =? j)%nat then - sumx n k (v k) else v k j) * p (X j)) (fun j => v k j * p (X j))) by (intros j Hj N; destruct (Nat.eqb_spec k j); [lia|auto]).
  rewrite (sumx_ext n k (fun j => v k j * (p (X k) - p (X j))) (fun j => p (X k) * v k j + (-1) * (v k j * p (X j)))) by (intros; ring).
  rewrite sumx_plus, !sumx_scal. ring.
Qed.

Lemma mat1_derivative k (d : R) : (k <= lg_nn s)%nat -> is_derive p (node s k) d -> sumn (S (lg_nn s)) (fun j => mat1 n X lam k j * p (node s j)) = d.
Proof using OK Hp. clear Hu Lu.
  intros Hk Hd. fold n X in Hk, Hd |- *. destruct (ok_lambda s OK) as (C & HC & Hl). fold n X in Hl. unfold mat1. rewrite row_product by lia.
  pose proof (deriv1_at n X HX C HC lam Hl Hout p Hp k d ltac:(lia) Hd) as K. unfold v1. rewrite K. ring.
Qed.
Lemma mat2_derivative k (p1 : R -> R) (d2 : R) : (k <= lg_nn s)%nat -> (forall t, is_derive p t (p1 t)) -> is_derive p1 (node s k) d2 -> sumn (S (lg_nn s)) (fun j => mat2 n X lam k j * p (node s j)) = d2.
Proof using OK Hp. clear Hu Lu.
  intros Hk Hd Hd2. fold n X in Hk, Hd2 |- *. destruct (ok_lambda s OK) as (C & HC & Hl). fold n X in Hl. unfold mat2. rewrite row_product by lia.
  pose proof (deriv2_at n X HX C HC lam Hl Hout p Hp k p1 d2 ltac:(lia) Hd Hd2) as K. cbv zeta in K.
  replace (sumx n k (fun j => v2 n X lam k j * (p (X k) - p (X j)))) with (2 * (- d2 / 2)); [field|]. rewrite <- K. rewrite <- sumx_scal. apply sumx_ext. intros j Hj N. unfold v2, mat1, v1. rewrite Nat.eqb_refl. ring.
Qed.
End Eval.

(* ------------------------------------------------------------------ *)
(** * Derivative matrices *)

Lemma fill_ok n (v : nat -> nat -> R) (entry : nat -> nat -> res R) m f : entries (S n) m f ->
  (forall k j, (k < S n)%nat -> (j < S n)%nat -> k <> j -> entry k j = Ok (v k j)) ->
  exists m', lg_fill (S n) entry m = Ok m' /\ entries (S n) m' (fun k j => if (k =? j)%nat then - sumx n k (v k) else v k j).
Proof.
  intros Hm He. unfold lg_fill.
  match goal with |- context [for_range 0 (S n) ?g m] => destruct (for_range_inv (fun h m' => exists f', entries (S n) m' f' /\ forall k j, (k < h)%nat -> (j < S n)%nat -> f' k j = if (k =? j)%nat then - sumx n k (v k) else v k j) g 0 (S n) m) as (m' & E & f' & Hf & V) end.
  - lia.
  - exists f. split; auto. lia.
  - intros k m1 Hk (f1 & H1 & V1).
    match goal with |- context [for_range 0 (S n) ?g (m1, 0)] => destruct (for_range_inv (fun h (mr : dmat R * R) => snd mr = sumn h (fun j => if (j =? k)%nat then 0 else v k j) /\
       exists f2, entries (S n) (fst mr) f2 /\ (forall a b, (a < k)%nat -> (b < S n)%nat -> f2 a b = f1 a b) /\ forall j, (j < h)%nat -> j <> k -> f2 k j = v k j) g 0 (S n) (m1, 0)) as ((m2 & rs) & E & Er & f2 & H2 & V2 & W2) end.
    + lia.
    + cbn [fst snd sumn]. split; auto. exists f1. splits; auto. intros; lia.
    + intros j (m2 & rs) Hj (Er & f2 & H2 & V2 & W2). cbn [fst snd] in *. destruct (Nat.eqb_spec k j) as [E|N].
      * eexists. split; [reflexivity|]. cbn [fst snd sumn]. destruct (Nat.eqb_spec j k); [|lia]. split; [lra|]. exists f2. splits; auto. intros i Hi Ni. apply W2; lia.
      * rewrite He by lia. cbn [bind]. destruct (entries_set (S n) m2 f2 k j (v k j) H2 ltac:(lia) ltac:(lia)) as (m3 & -> & H3). cbn [bind]. eexists. split; [reflexivity|]. cbn [fst snd sumn]. destruct (Nat.eqb_spec j k); [lia|]. split; [now rewrite Er|].
        eexists. split; [exact H3|]. split.
        -- intros a b Ha Hb. cbv beta. destruct (Nat.eqb_spec a k); [lia|]. cbn [andb]. auto.
        -- intros i Hi Ni. cbv beta. rewrite Nat.eqb_refl. cbn [andb]. destruct (Nat.eqb_spec i j) as [->|]; auto. apply W2; lia.
    + rewrite E. cbn [bind]. cbn [fst snd] in *. destruct (entries_set (S n) m2 f2 k k (- rs) H2 ltac:(lia) ltac:(lia)) as (m3 & -> & H3). eexists. split; [reflexivity|]. eexists. split; [exact H3|].
      intros a b Ha Hb. cbv beta. destruct (Nat.eqb_spec a k) as [->|Na]; cbn [andb].
      * destruct (Nat.eqb_spec b k) as [->|Nb]; [rewrite Nat.eqb_refl, Er; reflexivity|]. destruct (Nat.eqb_spec k b); [lia|]. apply W2; lia.
      * rewrite V2 by lia. apply V1; lia.
  - exists m'. split; auto. eapply entries_ext; eauto.
Qed.

Lemma new_entries n : entries n (d_new R 0 n n) (fun _ _ => 0).
Proof.
  unfold entries, d_new, d_wf, dval. cbn [d_nrow d_ncol d_data]. rewrite repeat_length. splits; auto. intros i j Hi Hj. apply nth_repeat_lt. nia.
Qed.

Lemma dd1_entry_ok s k j : lg_ok s -> (k < S (lg_nn s))%nat -> (j < S (lg_nn s))%nat -> k <> j -> lg_dd1_entry s k j = Ok (v1 (lg_nn s) (node s) (fun j => nth j (lg_lambda s) 0) k j).
Proof.
  intros OK Hk Hj N. unfold lg_dd1_entry, v1. rewrite !get_x by auto. cbn [bind]. destruct (no_eta_normalization (lg_params s)) eqn:E.
  - rewrite !get_l by auto. reflexivity.
  - destruct (ok_eta s OK E) as (Le & Ve). rewrite !(vget_ok _ _ 0) by lia. cbn [bind]. cbv zeta. rewrite !Ve by auto. f_equal. f_equal.
    destruct (ok_lambda s OK) as (C & HC & Hl). rewrite !Hl by auto. rewrite !wt_sign by (auto; apply OK). rewrite neg_pow_nat.
    unfold Rminus. rewrite exp_plus, exp_Ropp.
    match goal with |- _ * (exp ?a * / exp ?b) = _ => pose proof (exp_pos a); pose proof (exp_pos b); set (ea := exp a) in *; set (eb := exp b) in * end.
    clearbody ea eb. assert (F : forall m, (-1) ^ m <> 0) by (intros m; apply pow_nonzero; lra).
    rewrite !pow_add. pose proof (F k). pose proof (F j). pose proof (F (lg_nn s)). pose proof (pow_m1_sq j) as Sq.
    apply Rmult_eq_reg_r with ((-1) ^ j * eb); [|apply Rmult_integral_contrapositive; split; auto; lra].
    transitivity ((-1) ^ k * ((-1) ^ j * (-1) ^ j) * ea); [field; lra|]. rewrite Sq. field. splits; auto; lra.
Qed.

(** C30: the first derivative matrix has zero row sums and differentiates
    every polynomial of degree at most N exactly at the nodes *)
Theorem C30_dd1 s : lg_ok s -> exists s' m M, lg_calc_dd1 s = Ok s' /\ lg_ok s' /\ lg_nn s' = lg_nn s /\ lg_xx s' = lg_xx s /\ lg_get_dd1 s' = Ok m /\ entries (S (lg_nn s)) m M /\
  (forall k, (k <= lg_nn s)%nat -> sumn (S (lg_nn s)) (M k) = 0) /\
  (forall p k (d : R), is_poly (S (lg_nn s)) p -> (k <= lg_nn s)%nat -> is_derive p (node s k) d -> sumn (S (lg_nn s)) (fun j => M k j * p (node s j)) = d).
Proof.
  intros OK. set (M := mat1 (lg_nn s) (node s) (fun j => nth j (lg_lambda s) 0)).
  assert (P : forall p k (d : R), is_poly (S (lg_nn s)) p -> (k <= lg_nn s)%nat -> is_derive p (node s k) d -> sumn (S (lg_nn s)) (fun j => M k j * p (node s j)) = d) by (intros p k d Hp; now apply mat1_derivative).
  assert (Z : forall k, (k <= lg_nn s)%nat -> sumn (S (lg_nn s)) (M k) = 0).
  { intros k Hk. rewrite <- (P (fun _ => 1) k 0); [apply sumn_ext; intros; ring|apply is_poly_const; lia|auto|apply (is_derive_const (K := R_AbsRing) (V := R_NormedModule))]. }
  unfold lg_calc_dd1. rewrite (ok_np s OK). destruct (ok_dd1 s OK) as [Z0|En].
  - rewrite Z0. cbn [Nat.eqb]. destruct (fill_ok (lg_nn s) (v1 (lg_nn s) (node s) (fun j => nth j (lg_lambda s) 0)) (lg_dd1_entry s) _ _ (new_entries (S (lg_nn s)))) as (m & -> & En).
    + intros k j Hk Hj N. now apply dd1_entry_ok.
    + cbn [bind]. eexists _, m, M. split; [reflexivity|]. cbn [lg_nn lg_xx lg_dd1]. splits; auto.
      * destruct OK. constructor; cbn [lg_nn lg_npoint lg_xx lg_lambda lg_params lg_eta lg_dd1 lg_dd2]; auto.
      * unfold lg_get_dd1. cbn [lg_dd1]. destruct En as (_ & -> & _). reflexivity.
  - pose proof En as (_ & Er & _). rewrite Er, Nat.eqb_refl. exists s, (lg_dd1 s), M. splits; auto. unfold lg_get_dd1. now rewrite Er.
Qed.

(** C30: the second derivative matrix *)
Theorem C30_dd2 s : lg_ok s -> exists s' m M, lg_calc_dd2 s = Ok s' /\ lg_ok s' /\ lg_nn s' = lg_nn s /\ lg_xx s' = lg_xx s /\ lg_get_dd2 s' = Ok m /\ entries (S (lg_nn s)) m M /\
  (forall k, (k <= lg_nn s)%nat -> sumn (S (lg_nn s)) (M k) = 0) /\
  (forall p (p1 : R -> R) k (d2 : R), is_poly (S (lg_nn s)) p -> (k <= lg_nn s)%nat -> (forall t, is_derive p t (p1 t)) -> is_derive p1 (node s k) d2 -> sumn (S (lg_nn s)) (fun j => M k j * p (node s j)) = d2).
Proof.
  intros OK. set (lam := fun j => nth j (lg_lambda s) 0). set (M := mat2 (lg_nn s) (node s) lam).
  assert (P : forall p (p1 : R -> R) k (d2 : R), is_poly (S (lg_nn s)) p -> (k <= lg_nn s)%nat -> (forall t, is_derive p t (p1 t)) -> is_derive p1 (node s k) d2 -> sumn (S (lg_nn s)) (fun j => M k j * p (node s j)) = d2) by (intros p p1 k d2 Hp Hk H1 H2; eapply mat2_derivative; eauto).
  assert (Z : forall k, (k <= lg_nn s)%nat -> sumn (S (lg_nn s)) (M k) = 0).
  { intros k Hk. rewrite <- (P (fun _ => 1) (fun _ => 0) k 0); [apply sumn_ext; intros; ring|apply is_poly_const; lia|auto|intros; apply (is_derive_const (K := R_AbsRing) (V := R_NormedModule))|apply (is_derive_const (K := R_AbsRing) (V := R_NormedModule))]. }
  unfold lg_calc_dd2. assert (D1 : exists s1, lg_calc_dd1 s = Ok s1 /\ lg_ok s1 /\ lg_nn s1 = lg_nn s /\ lg_npoint s1 = lg_npoint s /\ lg_xx s1 = lg_xx s /\ lg_lambda s1 = lg_lambda s /\ entries (S (lg_nn s)) (lg_dd1 s1) (mat1 (lg_nn s) (node s) lam)).
  { unfold lg_calc_dd1. rewrite (ok_np s OK). destruct (ok_dd1 s OK) as [Z0|En].
    - rewrite Z0. cbn [Nat.eqb]. destruct (fill_ok (lg_nn s) (v1 (lg_nn s) (node s) lam) (lg_dd1_entry s) _ _ (new_entries (S (lg_nn s)))) as (m & -> & En).
      + intros k j Hk Hj N. now apply dd1_entry_ok.
      + cbn [bind]. eexists. split; [reflexivity|]. cbn [lg_nn lg_xx lg_dd1 lg_npoint lg_lambda]. splits; auto.
        destruct OK. constructor; cbn [lg_nn lg_npoint lg_xx lg_lambda lg_params lg_eta lg_dd1 lg_dd2]; auto.
    - pose proof En as (_ & Er & _). rewrite Er, Nat.eqb_refl. exists s. splits; auto. apply OK. }
  destruct D1 as (s1 & -> & OK1 & N1 & N2 & X1 & L1 & En1). cbn [bind]. rewrite N2, (ok_np s OK).
  assert (Nd : node s1 = node s) by (unfold node; now rewrite X1).
  destruct (ok_dd2 s1 OK1) as [Z0|En].
  - rewrite Z0. cbn [Nat.eqb]. destruct (fill_ok (lg_nn s) (v2 (lg_nn s) (node s) lam) (lg_dd2_entry s1) _ _ (new_entries (S (lg_nn s)))) as (m & -> & En).
    + intros k j Hk Hj N. unfold lg_dd2_entry. rewrite !(entries_get _ _ _ _ _ En1) by auto. cbn [bind]. rewrite !(get_x s1 OK1) by (rewrite N1; auto). cbn [bind]. rewrite Nd. unfold v2. do 2 f_equal. unfold mat1 at 1. destruct (Nat.eqb_spec k j); [lia|auto].
    + cbn [bind]. eexists _, m, M. split; [reflexivity|]. cbn [lg_nn lg_xx lg_dd2]. splits; auto.
      * destruct OK1. constructor; unfold node in *; cbn [lg_nn lg_npoint lg_xx lg_lambda lg_params lg_eta lg_dd1 lg_dd2]; auto. right. rewrite N1, X1, L1. exact En.
      * unfold lg_get_dd2. cbn [lg_dd2]. destruct En as (_ & -> & _). reflexivity.
  - pose proof En as (_ & Er & _). rewrite Er, N1, Nat.eqb_refl. exists s1, (lg_dd2 s1), M. splits; auto.
    + unfold lg_get_dd2. now rewrite Er.
    + rewrite N1, Nd, L1 in En. exact En.
Qed.

(* ------------------------------------------------------------------ *)
(** * The nodes are farther apart than the tolerance *)

Lemma sin_half x : 0 <= x <= 1 -> x / 2 <= sin x.
Proof.
  intros H. pose proof PI2_3_2. destruct (SIN x) as (K & _); [lra|lra|]. apply Rle_trans with (sin_lb x); auto. unfold sin_lb, sin_approx, sin_term. cbn [sum_f_R0 fact Nat.mul Nat.add pow]. 
  simpl INR. assert (x * x <= 1) by nra. assert (0 <= x * x) by nra. set (y := x * x) in *.
  match goal with |- _ <= ?e => replace e with (x * (1 - y / 6 + y * y / 120 - y * y * y / 5040)) by (unfold y; field) end.
  assert (0 <= y * y <= 1) by nra. assert (0 <= y * y * y <= 1) by nra. nra.
Qed.
Lemma sin_mid d x : 0 <= d -> d <= PI / 2 -> d <= x <= PI - d -> sin d <= sin x.
Proof.
  intros H0 H1 H2. destruct (Rle_lt_dec x (PI / 2)) as [L|L].
  - apply sin_incr_1; lra.
  - rewrite <- (sin_PI_x x). apply sin_incr_1; lra.
Qed.
Lemma cos_gap d a b : 0 <= d <= 1 -> d <= (a + b) / 2 <= PI - d -> d <= (b - a) / 2 <= PI - d -> d * d / 2 <= cos a - cos b.
Proof.
  intros Hd H1 H2. pose proof PI2_3_2. assert (E : cos a - cos b = 2 * sin ((a + b) / 2) * sin ((b - a) / 2)).
  { rewrite form2. replace ((a - b) / 2) with (- ((b - a) / 2)) by field. rewrite sin_neg. ring. }
  rewrite E. pose proof (sin_half d Hd). pose proof (sin_mid d ((a + b) / 2) ltac:(lra) ltac:(lra) H1). pose proof (sin_mid d ((b - a) / 2) ltac:(lra) ltac:(lra) H2).
  assert (d / 2 * (d / 2) <= sin ((a + b) / 2) * sin ((b - a) / 2)) by (apply Rmult_le_compat; lra). lra.
Qed.

Lemma DX_small : DX_EPSILON <= / 5000 * / 5000 / 2.
Proof. unfold DX_EPSILON, FEPS. lra. Qed.

Lemma angle_gap (m : R) (i j : nat) (c : R) : 1 <= m <= 4200 -> (forall k : R, k = INR i + INR j + c \/ k = INR j - INR i -> 1 <= k <= m - 1) ->
  / 5000 * / 5000 / 2 <= cos ((2 * INR i + c) * PI / m) - cos ((2 * INR j + c) * PI / m).
Proof.
  intros Hm Hk. pose proof PI2_3_2. pose proof PI_4. apply Rle_trans with (/ 5000 * / 5000 / 2); [lra|]. apply cos_gap; [lra| |].
  - destruct (Hk _ (or_introl eq_refl)) as (K1 & K2). replace (((2 * INR i + c) * PI / m + (2 * INR j + c) * PI / m) / 2) with ((INR i + INR j + c) * (PI / m)) by (field; lra).
    assert (P : / 5000 <= PI / m). { apply (Rmult_le_reg_r m); [lra|]. unfold Rdiv. rewrite Rmult_assoc, Rinv_l by lra. nra. }
    assert (Q : PI = m * (PI / m)) by (field; lra). set (t := PI / m) in *. split; nra.
  - destruct (Hk _ (or_intror eq_refl)) as (K1 & K2). replace (((2 * INR j + c) * PI / m - (2 * INR i + c) * PI / m) / 2) with ((INR j - INR i) * (PI / m)) by (field; lra).
    assert (P : / 5000 <= PI / m). { apply (Rmult_le_reg_r m); [lra|]. unfold Rdiv. rewrite Rmult_assoc, Rinv_l by lra. nra. }
    assert (Q : PI = m * (PI / m)) by (field; lra). set (t := PI / m) in *. split; nra.
Qed.

Lemma grid_gap g n i j : (1 <= n <= N.to_nat 2048)%nat -> (i < j <= n)%nat -> / 5000 * / 5000 / 2 <= grid_node g n j - grid_node g n i.
Proof.
  intros Hn Hij. assert (HN : 1 <= INR n <= 2048).
  { split; [apply (le_INR 1); lia|]. destruct Hn as (_ & Hn). apply le_INR in Hn. rewrite (INR_IZR_INZ (N.to_nat 2048)) in Hn. rewrite N_nat_Z in Hn. exact Hn. }
  assert (HI : 0 <= INR i) by apply pos_INR. assert (HJ : INR i + 1 <= INR j) by (rewrite <- S_INR; apply le_INR; lia). assert (HK : INR j <= INR n) by (apply le_INR; lia).
  destruct g; cbn [grid_node].
  - replace (-1 + 2 * INR j / INR n - (-1 + 2 * INR i / INR n)) with (2 * (INR j - INR i) / INR n) by (field; lra). apply (Rmult_le_reg_r (INR n)); [lra|]. unfold Rdiv. rewrite (Rmult_assoc (2 * _)), Rinv_l by lra. nra.
  - replace (- cos (INR (2 * j + 1) * PI / (2 * INR n + 2)) - - cos (INR (2 * i + 1) * PI / (2 * INR n + 2))) with (cos ((2 * INR i + 1) * PI / (2 * INR n + 2)) - cos ((2 * INR j + 1) * PI / (2 * INR n + 2))).
    + apply angle_gap; [lra|]. intros k [->| ->]; lra.
    + rewrite !plus_INR, !mult_INR. change (INR 2) with 2. change (INR 1) with 1. ring.
  - destruct (Nat.eq_dec n 1) as [->|N1].
    + assert (i = 0)%nat as -> by lia. assert (j = 1)%nat as -> by lia. simpl INR. replace (PI * 1 / 1) with PI by field. replace (PI * 0 / 1) with 0 by field. rewrite cos_PI, cos_0. lra.
    + assert (N2 : 2 <= INR n) by (apply (le_INR 2); lia). assert (IJ : 1 <= INR i + INR j) by lra.
      destruct (Nat.eq_dec (j - i) n) as [E|E].
      { assert (i = 0)%nat as -> by lia. assert (j = n) as -> by lia. replace (PI * INR n / INR n) with PI by (field; lra). replace (PI * INR 0 / INR n) with 0 by (simpl; field; lra). rewrite cos_PI, cos_0. lra. }
      replace (- cos (PI * INR j / INR n) - - cos (PI * INR i / INR n)) with (cos ((2 * INR i + 0) * PI / (2 * INR n)) - cos ((2 * INR j + 0) * PI / (2 * INR n))).
      * apply angle_gap; [lra|]. assert (J2 : INR i + INR j <= 2 * INR n - 1) by lra. intros k [->| ->]; lra.
      * replace ((2 * INR i + 0) * PI / (2 * INR n)) with (PI * INR i / INR n) by (field; lra). replace ((2 * INR j + 0) * PI / (2 * INR n)) with (PI * INR j / INR n) by (field; lra). ring.
Qed.

(** C30: on every grid that the constructor builds, the nodes meet the
    hypothesis of the theorems above, so psi is cardinal *)
Theorem C30_nodes_clear nn params s i j : lg_new nn params = Ok s -> (i <= nn)%nat -> (j <= nn)%nat ->
  clear_of_nodes s (node s i) /\ lg_psi s j (node s i) = Ok (if (i =? j)%nat then 1 else 0).
Proof.
  intros E Hi Hj. destruct (C30_new nn params) as (Hn & _ & K). destruct (proj1 Hn (ex_intro _ s E)) as (HN & _ & _). destruct (K s E) as (OK & En & _ & Gn & _).
  assert (Hc : clear_of_nodes s (node s i)).
  { split; [apply (ok_range s OK); lia|]. rewrite En. intros k Hk. destruct (Nat.lt_trichotomy i k) as [L|[->|L]]; auto; right; pose proof DX_small; rewrite !Gn by auto.
    - pose proof (grid_gap (grid_type match params with Some p => p | None => ip_default end) nn i k HN ltac:(lia)). rewrite Rabs_left1; lra.
    - pose proof (grid_gap (grid_type match params with Some p => p | None => ip_default end) nn k i HN ltac:(lia)). rewrite Rabs_pos_eq; lra. }
  split; auto. apply C30_cardinal; auto; lia.
Qed.

(* ------------------------------------------------------------------ *)
(** * Findings *)

(** Refuted: eval_deriv1 at x = 1 is the derivative at x = 1.  The points of a
    ChebyshevGauss grid do not reach the end of the interval, but x = 1 is taken
    for the last of them. *)
Theorem C30_gauss_end_refuted nn params s : lg_new nn params = Ok s -> grid_type (lg_params s) = ChebyshevGauss -> (2 <= nn)%nat ->
  forall uu, length uu = S nn -> (forall j, (j <= nn)%nat -> nth j uu 0 = node s j * node s j) ->
  exists d, lg_eval_deriv1 s 1 uu = Ok d /\ d < 2 /\ is_derive (fun x => x * x) 1 2.
Proof.
  intros E G Hn uu L Hu. destruct (C30_new nn params) as (_ & _ & K). destruct (K s E) as (OK & En & Ep & Gn & _). rewrite Ep in G. rewrite G in Gn.
  assert (D : forall x, is_derive (fun x => x * x) x (2 * x)) by (intros x; auto_derive; auto; ring).
  exists (2 * node s nn). splits.
  - apply (deriv1_code s OK (fun x => x * x)) with (k := nn); rewrite ?En; auto; try lra.
    + exists [0; 0; 1]. split; [cbn; lia|]. intros x. cbn. ring.
    + unfold lg_at_node. destruct (Reqb_spec 1 (-1)); [lra|]. destruct (Reqb_spec 1 1); [now rewrite En|lra].
  - rewrite Gn by auto. cbn [grid_node]. pose proof (gauss_angle_range nn nn ltac:(lia)) as H. unfold gauss_angle in H. pose proof PI_RGT_0.
    assert (K1 : cos PI < cos (INR (2 * nn + 1) * PI / (2 * INR nn + 2))) by (apply cos_decreasing_1; lra). rewrite cos_PI in K1. lra.
  - pose proof (D 1) as D1. replace (2 * 1) with 2 in D1 by ring. exact D1.
Qed.

(** Refuted: eval reproduces constants everywhere.  Between a node and the
    tolerance, psi of this node is set to 1 and the others are kept. *)
Theorem C30_near_node_refuted s x : lg_new 1 None = Ok s -> -1 < x < -1 + DX_EPSILON -> exists v, lg_eval s x [1; 1] = Ok v /\ 1 < v.
Proof.
  intros E Hx. destruct (C30_new 1 None) as (_ & _ & K). destruct (K s E) as (OK & En & Ep & Gn & Ge). clear K. destruct Ge as (G0 & G1); [discriminate|]. pose proof DX_small.
  unfold lg_eval. destruct (Rltb_spec x (-1)); [lra|]. destruct (Rltb_spec 1 x); [lra|]. cbn [orb]. rewrite (ok_np s OK), En. cbn [length Nat.eqb negb].
  assert (P0 : lg_psi s 0 x = Ok 1).
  { unfold lg_psi. rewrite En. cbn [Nat.ltb Nat.leb]. destruct (Rltb_spec x (-1)); [lra|]. destruct (Rltb_spec 1 x); [lra|]. cbn [orb]. rewrite (vget_ok _ _ 0) by (rewrite (ok_lx s OK); lia). cbn [bind]. change (nth 0 (lg_xx s) 0) with (node s 0). rewrite G0.
    destruct (Rltb_spec (Rabs (x - -1)) DX_EPSILON) as [|N]; auto. rewrite Rabs_pos_eq in N; lra. }
  assert (P1 : lg_psi s 1 x = Ok (ell 1 (node s) 1 x)).
  { pose proof (psi_off s OK 1 x) as Q. rewrite En in Q. apply Q; try lia; try lra.
    - intros k Hk. destruct k as [|[|k]]; [rewrite G0; lra|rewrite G1; lra|lia].
    - rewrite G1, Rabs_left1; lra. }
  unfold for_range. cbn [Nat.sub for_n bind vget nth_error]. rewrite P0, P1. cbn [unwrap bind]. eexists. split; [reflexivity|].
  unfold ell. cbn [prodn Nat.eqb]. rewrite G0, G1. lra.
Qed.

(** the hypotheses of the theorems are met: the default grid of degree 4, x = 0.3 *)
Example C30_example : exists s, lg_new 4 None = Ok s /\ lg_ok s /\ clear_of_nodes s 0.3 /\ ends_ok s 1.
Proof.
  destruct (C30_new 4 None) as (Hn & _ & K). destruct (proj2 Hn) as (s & E).
  - cbn [ip_default lebesgue_estimate_nstation error_estimate_nstation]. splits; try lia; rewrite <- Nat.leb_le; reflexivity.
  - exists s. destruct (K s E) as (OK & En & Ep & Gn & Ge). splits; auto.
    + split; [lra|]. rewrite En. intros k Hk. right. rewrite Gn by auto. cbn [grid_type ip_default grid_node]. pose proof DX_small.
      assert (C4 : cos (PI / 4) * cos (PI / 4) = / 2) by (rewrite cos_PI4; unfold Rdiv; rewrite !Rmult_1_l, <- Rinv_mult, sqrt_sqrt by lra; reflexivity).
      assert (0 < cos (PI / 4)) by (apply cos_gt_0; pose proof PI_RGT_0; lra).
      destruct k as [|[|[|[|[|k]]]]]; [| | | | |lia]; simpl INR.
      * replace (PI * 0 / _) with 0 by field. rewrite cos_0, Rabs_pos_eq; lra.
      * replace (PI * 1 / _) with (PI / 4) by field. rewrite Rabs_pos_eq; lra.
      * replace (PI * (1 + 1) / _) with (PI / 2) by field. rewrite cos_PI2, Rabs_pos_eq; lra.
      * replace (PI * (1 + 1 + 1) / _) with (PI - PI / 4) by field. rewrite cos_PI_minus, Rabs_left1; nra.
      * replace (PI * (1 + 1 + 1 + 1) / _) with PI by field. rewrite cos_PI, Rabs_left1; lra.
    + right. rewrite En. apply Ge. discriminate.
Qed.

Print Assumptions C30_new.
Print Assumptions C30_psi.
Print Assumptions C30_cardinal.
Print Assumptions C30_partition.
Print Assumptions C30_lebesgue.
Print Assumptions C30_eval.
Print Assumptions C30_polynomial.
Print Assumptions C30_eval_deriv1.
Print Assumptions C30_eval_deriv2.
Print Assumptions C30_dd1.
Print Assumptions C30_dd2.
Print Assumptions C30_nodes_clear.
Print Assumptions C30_gauss_end_refuted.
Print Assumptions C30_near_node_refuted.
