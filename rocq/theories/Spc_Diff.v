(** Spectral differentiation on a mapped Chebyshev-Gauss-Lobatto grid. *)
From Coquelicot Require Import Coquelicot.
From Verif Require Import Base RBase RSum Poly Dense_Model Sparse_Model Grid_Model Bcs_Model Fdm_Model Fdm_Entries Jacobi_Thm Cheb_Model Cheb_Thm InterpLagrange_Model InterpLagrange_Thm Spc_Model.
From Coq Require Import Reals Lra Lia.
Local Open Scope R_scope.

(** ** specification: the grid *)
(** the k-th of n Chebyshev-Gauss-Lobatto points of [-1,1] *)
Definition cgl (n k : nat) : R := - cos (PI * INR k / INR (n - 1)).
(** the k-th of n points of the interval from [a] to [b] *)
Definition xnode (a b : R) (n k : nat) : R := (a + b) / 2 + (b - a) / 2 * cgl n k.

(** ** proofs *)
Lemma nsum_sumn n f : nsum n f = sumn n f.
Proof.
  induction n as [|n IH]; [reflexivity|]. replace (S n) with (n + 1)%nat at 1 by lia. rewrite nsum_app, IH. cbn [sumn]. f_equal.
  unfold nsum. cbn. rewrite Nat.add_0_r. ring.
Qed.

Lemma map_xnode a b n k : spc_map a b (cgl n k) = xnode a b n k.
Proof. unfold spc_map, xnode. field. Qed.

Lemma cgl_first n : cgl n 0 = -1.
Proof. unfold cgl. cbn [INR]. unfold Rdiv. rewrite Rmult_0_r, Rmult_0_l, cos_0. reflexivity. Qed.
Lemma cgl_last n : (2 <= n)%nat -> cgl n (n - 1) = 1.
Proof.
  intros H. unfold cgl. assert (0 < INR (n - 1)) by (apply (lt_INR 0); lia).
  replace (PI * INR (n - 1) / INR (n - 1)) with PI by (field; lra). rewrite cos_PI. ring.
Qed.
Lemma xnode_first a b n : xnode a b n 0 = a.
Proof. unfold xnode. rewrite cgl_first. field. Qed.
Lemma xnode_last a b n : (2 <= n)%nat -> xnode a b n (n - 1) = b.
Proof. intros H. unfold xnode. rewrite cgl_last by auto. field. Qed.

Lemma cgl_sorted n i j : (i < j < n)%nat -> cgl n i < cgl n j.
Proof.
  intros H. destruct (C29_lobatto_points (n - 1) ltac:(lia)) as (xx & E & L & V).
  destruct (C29_lobatto_sorted (n - 1) xx ltac:(lia) E) as (_ & _ & St & _).
  pose proof (sorted_steps (n - 1) (fun i => nth i xx 0) St i j ltac:(lia)) as K. cbv beta in K. rewrite !V in K by lia. exact K.
Qed.

Lemma xnode_distinct a b n i j : a <> b -> (i < n)%nat -> (j < n)%nat -> xnode a b n i = xnode a b n j -> i = j.
Proof.
  intros N Hi Hj E. unfold xnode in E. assert (C : cgl n i = cgl n j).
  { apply Rmult_eq_reg_l with ((b - a) / 2); [lra|]. intros Z. apply N. lra. }
  destruct (Nat.lt_trichotomy i j) as [L|[L|L]]; auto; exfalso;
    [pose proof (cgl_sorted n i j ltac:(lia))|pose proof (cgl_sorted n j i ltac:(lia))]; lra.
Qed.

Lemma is_poly_affine n f c e : is_poly n f -> is_poly n (fun r => f (c + e * r)).
Proof.
  intros (p & L & H). apply is_poly_ext with (fun r => peval p (c + e * r)); [|intros; now rewrite H].
  clear H f. revert n L. induction p as [|q p IH]; intros n L.
  - cbn. apply is_poly_zero.
  - cbn [peval length] in *. destruct n as [|n]; [lia|]. apply is_poly_plus; [apply is_poly_const; lia|].
    specialize (IH n ltac:(lia)).
    apply is_poly_ext with (fun r => c * peval p (c + e * r) + e * (r * peval p (c + e * r))); [|intros; ring].
    apply is_poly_plus; apply is_poly_scal; [eapply is_poly_le; eauto|now apply is_poly_X].
Qed.

(** what the constructor keeps in the interpolator *)
Record diff_ok (s : lagrange) (n : nat) (d1 d2 : dmat R) (D1 D2 : nat -> nat -> R) : Prop := {
  do_g1 : lg_get_dd1 s = Ok d1;
  do_g2 : lg_get_dd2 s = Ok d2;
  do_e1 : entries n d1 D1;
  do_e2 : entries n d2 D2;
  do_x1 : forall p k (d : R), is_poly n p -> (k < n)%nat -> is_derive p (cgl n k) d -> nsum n (fun j => D1 k j * p (cgl n j)) = d;
  do_x2 : forall p (p1 : R -> R) k (d : R), is_poly n p -> (k < n)%nat -> (forall t, is_derive p t (p1 t)) -> is_derive p1 (cgl n k) d ->
    nsum n (fun j => D2 k j * p (cgl n j)) = d }.

Lemma interp_ok n : (2 <= n)%nat -> (n - 1 <= N.to_nat 2048)%nat ->
  exists s0 s1 s2 d1 d2 D1 D2, unwrap (lg_new (n - 1) None) = Ok s0 /\ lg_calc_dd1 s0 = Ok s1 /\ lg_calc_dd2 s1 = Ok s2 /\ diff_ok s2 n d1 d2 D1 D2.
Proof.
  intros H1 H2. destruct (C30_new (n - 1) None) as (A & _ & C). cbn in A.
  destruct (proj2 A) as (s0 & E0). { splits; [lia|auto| |]; unfold ip_default; cbn [lebesgue_estimate_nstation error_estimate_nstation]; lia. }
  destruct (C s0 E0) as (OK0 & N0 & _ & V0 & _). clear A C. cbn [grid_type ip_default] in V0.
  destruct (C30_dd1 s0 OK0) as (s1 & d1 & D1 & E1 & OK1 & N1 & X1 & G1 & En1 & _ & P1).
  destruct (C30_dd2 s1 OK1) as (s2 & d2 & D2 & E2 & OK2 & N2 & X2 & G2 & En2 & _ & P2).
  exists s0, s1, s2, d1, d2, D1, D2. rewrite E0. splits; auto.
  assert (SN : S (n - 1) = n) by lia. rewrite N0, SN in *. rewrite N1, SN in *.
  assert (V0' : forall i, (i < n)%nat -> node s0 i = cgl n i) by (intros i Hi; apply V0; lia).
  assert (V1 : forall i, (i < n)%nat -> node s1 i = cgl n i) by (intros i Hi; unfold node; rewrite X1; now apply V0').
  constructor; auto.
  - assert (K : lg_dd1 s2 = lg_dd1 s1); [|unfold lg_get_dd1 in *; now rewrite K].
    unfold lg_calc_dd2 in E2. assert (Q : lg_calc_dd1 s1 = Ok s1).
    { unfold lg_calc_dd1. unfold lg_get_dd1 in G1. destruct (d_nrow (lg_dd1 s1) =? 0)%nat; [discriminate|]. injection G1 as G1.
      rewrite G1, (ok_np s1 OK1), N1. destruct En1 as (_ & -> & _). rewrite SN, Nat.eqb_refl. reflexivity. }
    rewrite Q in E2. cbn [bind] in E2. destruct (_ =? _)%nat; [injection E2 as <-; auto|]. apply bind_ok in E2. destruct E2 as (m & _ & E2). injection E2 as <-. reflexivity.
  - intros p k d Hp Hk Hd. rewrite nsum_sumn. rewrite <- (P1 p k d Hp ltac:(lia)) by (now rewrite V0').
    apply sumn_ext. intros j Hj. now rewrite V0'.
  - intros p p1 k d Hp Hk H Hd. rewrite nsum_sumn. rewrite <- (P2 p p1 k d Hp ltac:(lia) H) by (now rewrite V1).
    apply sumn_ext. intros j Hj. now rewrite V1.
Qed.

Section Phys.
Variables (s : lagrange) (n : nat) (d1 d2 : dmat R) (D1 D2 : nat -> nat -> R) (a b : R).
Hypothesis DO : diff_ok s n d1 d2 D1 D2.
Hypothesis AB : a <> b.
Notation c := (2 / (b - a)).

Lemma comp_derive (f : R -> R) r (d : R) : is_derive f ((a + b) / 2 + (b - a) / 2 * r) d -> is_derive (fun r => f ((a + b) / 2 + (b - a) / 2 * r)) r ((b - a) / 2 * d).
Proof using.
  clear. intros H. apply (is_derive_comp f (fun r => (a + b) / 2 + (b - a) / 2 * r)); auto. auto_derive; auto. ring.
Qed.

Lemma phys1 f k (d : R) : is_poly n f -> (k < n)%nat -> is_derive f (xnode a b n k) d ->
  nsum n (fun j => D1 k j * c * f (xnode a b n j)) = d.
Proof using DO AB.
  intros Hp Hk Hd. apply comp_derive in Hd.
  pose proof (do_x1 _ _ _ _ _ _ DO _ k _ (is_poly_affine n f ((a + b) / 2) ((b - a) / 2) Hp) Hk Hd) as E.
  cbv beta in E. rewrite nsum_sumn in *. rewrite (sumn_ext _ _ (fun j => c * (D1 k j * f (xnode a b n j)))) by (intros; ring).
  rewrite sumn_scal. unfold xnode. rewrite E. field. intros Z. apply AB. lra.
Qed.

Lemma phys2 f f1 k (d : R) : is_poly n f -> (k < n)%nat -> (forall t, is_derive f t (f1 t)) -> is_derive f1 (xnode a b n k) d ->
  nsum n (fun j => D2 k j * (c * c) * f (xnode a b n j)) = d.
Proof using DO AB.
  intros Hp Hk Hf Hd. apply comp_derive in Hd.
  assert (Hd' : is_derive (fun r => (b - a) / 2 * f1 ((a + b) / 2 + (b - a) / 2 * r)) (cgl n k) ((b - a) / 2 * ((b - a) / 2 * d))).
  { exact (is_derive_scal (fun r => f1 ((a + b) / 2 + (b - a) / 2 * r)) (cgl n k) ((b - a) / 2) _ Hd). }
  pose proof (do_x2 _ _ _ _ _ _ DO _ _ k _ (is_poly_affine n f ((a + b) / 2) ((b - a) / 2) Hp) Hk (fun t => comp_derive f t _ (Hf _)) Hd') as E.
  cbv beta in E. rewrite nsum_sumn in *. rewrite (sumn_ext _ _ (fun j => c * c * (D2 k j * f (xnode a b n j)))) by (intros; ring).
  rewrite sumn_scal. unfold xnode. rewrite E. field. intros Z. apply AB. lra.
Qed.
End Phys.

(** every nodal vector comes from exactly one polynomial, which has polynomial derivatives *)
Lemma lagrange_basis a b n : a <> b -> (1 <= n)%nat ->
  exists L : nat -> R -> R, (forall j, (j < n)%nat -> is_poly n (L j)) /\
    (forall i j, (i < n)%nat -> (j < n)%nat -> L j (xnode a b n i) = if (i =? j)%nat then 1 else 0).
Proof.
  intros N H. destruct n as [|m]; [lia|]. exists (ell m (xnode a b (S m))). split.
  - intros j Hj. now apply ell_poly.
  - intros i j Hi Hj. rewrite ell_node; auto. intros p q Hp Hq. now apply xnode_distinct.
Qed.

Lemma poly_derivs n f : is_poly n f -> exists f1 f2 : R -> R, (forall t, is_derive f t (f1 t)) /\ (forall t, is_derive f1 t (f2 t)).
Proof.
  intros H. destruct (is_poly_derive (S n) f ltac:(eapply is_poly_le; eauto)) as (f1 & P1 & E1).
  destruct (is_poly_derive n f1 ltac:(eapply is_poly_le; eauto)) as (f2 & _ & E2). eauto.
Qed.

(** a loop that stores one value per position, starting from zeros *)
Lemma store {X} (l : list X) (step : X -> list R -> res (list R)) (pos : X -> nat) (v : X -> R) (n : nat) :
  (forall x a, In x l -> length a = n -> nth (pos x) a 0 = 0 -> exists a', step x a = Ok a' /\ length a' = n /\
     forall r, nth r a' 0 = if (r =? pos x)%nat then v x else nth r a 0) ->
  NoDup (map pos l) ->
  forall a, length a = n -> (forall x, In x l -> nth (pos x) a 0 = 0) -> exists a', for_each l step a = Ok a' /\ length a' = n /\
    (forall r, (forall x, In x l -> pos x <> r) -> nth r a' 0 = nth r a 0) /\ (forall x, In x l -> nth (pos x) a' 0 = v x).
Proof.
  intros S. induction l as [|x l IH]; intros ND a La Z; cbn [for_each].
  - exists a. splits; auto. intros x [].
  - assert (NI : ~ In (pos x) (map pos l)) by (now inversion ND). assert (ND' : NoDup (map pos l)) by (now inversion ND). destruct (S x a (or_introl eq_refl) La (Z x (or_introl eq_refl))) as (b & E & Lb & Nb).
    rewrite E. cbn [bind]. assert (NE : forall y, In y l -> pos y <> pos x) by (intros y Hy Q; apply NI; rewrite <- Q; now apply in_map).
    destruct (IH (fun y a H => S y a (or_intror H)) ND' b Lb) as (c & E' & Lc & Nc & Vc).
    { intros y Hy. rewrite Nb. destruct (Nat.eqb_spec (pos y) (pos x)) as [Q|]; [now apply NE in Q|]. apply Z. now right. }
    exists c. splits; auto.
    + intros r Hr. rewrite Nc by (intros y Hy; apply Hr; now right). rewrite Nb. destruct (Nat.eqb_spec r (pos x)) as [Q|]; auto.
      exfalso. apply (Hr x (or_introl eq_refl)). auto.
    + intros y [<-|Hy]; [|now apply Vc]. rewrite Nc by auto. rewrite Nb, Nat.eqb_refl. reflexivity.
Qed.
