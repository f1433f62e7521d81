(** C98: the pseudo-inverse satisfies the Penrose conditions; the eigenvectors are eigenvectors. *)
From Coq Require Import Reals ZArith Lra.
From Coquelicot Require Import Complex.
From Verif Require Import Base RBase RSum Dense_Model Dense_Proofs Dense_Thm LinSol_Model Verify_Model Verify_Thm Blas_Model Blas_Thm Decomp_Model.
Local Open Scope R_scope.

(* ------------------------------------------------------------------ *)
(** * Specification: matrices as index functions *)
Definition mmul (k : nat) (a b : nat -> nat -> R) (i j : nat) : R := sumn k (fun l => a i l * b l j).
Definition same (m n : nat) (a b : nat -> nat -> R) : Prop := forall i j, (i < m)%nat -> (j < n)%nat -> a i j = b i j.

(** x (n by m) is the Moore-Penrose inverse of a (m by n) *)
Definition penrose (m n : nat) (a x : nat -> nat -> R) : Prop :=
  same m n (mmul m (mmul n a x) a) a /\
  same n m (mmul n (mmul m x a) x) x /\
  same m m (mmul n a x) (fun i j => mmul n a x j i) /\
  same n n (mmul m x a) (fun i j => mmul m x a j i).

(** s, u, vt are a singular value decomposition of a *)
Definition is_svd (m n : nat) (a : nat -> nat -> R) (s : nat -> R) (u vt : nat -> nat -> R) : Prop :=
  (forall k l, (k < m)%nat -> (l < m)%nat -> sumn m (fun i => u i k * u i l) = if (k =? l)%nat then 1 else 0) /\
  (forall k l, (k < n)%nat -> (l < n)%nat -> sumn n (fun j => vt k j * vt l j) = if (k =? l)%nat then 1 else 0) /\
  (forall k, (k < Nat.min m n)%nat -> 0 <= s k) /\
  (forall i j, (i < m)%nat -> (j < n)%nat -> a i j = sumn (Nat.min m n) (fun k => s k * (u i k * vt k j))).

Definition lv (n : nat) (v : list R) (i j : nat) : R := nth (i + j * n) v 0.

(** what LAPACK documents for dgesvd *)
Definition dgesvd_spec (dgesvd : nat -> nat -> list R -> nat -> nat -> nat -> Z * list R * list R * list R) : Prop :=
  forall m n a lda ldu ldvt, let '(info, s, u, vt) := dgesvd m n a lda ldu ldvt in
  ((lda < Nat.max 1 m)%nat -> (info < 0)%Z) /\
  ((ldvt < Nat.max 1 n)%nat -> (info < 0)%Z) /\
  (info = 0%Z -> (lda = m)%nat -> (ldu = m)%nat -> (ldvt = n)%nat -> length a = (m * n)%nat ->
     length s = Nat.min m n /\ length u = (m * m)%nat /\ length vt = (n * n)%nat /\
     is_svd m n (lv m a) (fun k => nth k s 0) (lv m u) (lv n vt)).

(* ------------------------------------------------------------------ *)
(** * Products of sums of rank-one matrices *)
Lemma sum_delta r k f : (k < r)%nat -> sumn r (fun p => f p * (if (k =? p)%nat then 1 else 0)) = f k.
Proof.
  intros H. rewrite (sumn_single r _ k H); [rewrite Nat.eqb_refl; ring|]. intros p _ N. destruct (Nat.eqb_spec k p); [congruence|ring].
Qed.
Lemma rank_prod N r (c d : nat -> R) (P V W Q : nat -> nat -> R) i j :
  (forall k l, (k < r)%nat -> (l < r)%nat -> sumn N (fun q => V k q * W l q) = if (k =? l)%nat then 1 else 0) ->
  sumn N (fun q => sumn r (fun k => c k * (P i k * V k q)) * sumn r (fun l => d l * (W l q * Q j l))) = sumn r (fun k => c k * d k * (P i k * Q j k)).
Proof.
  intros O. transitivity (sumn r (fun k => sumn r (fun l => c k * d l * (P i k * Q j l) * sumn N (fun q => V k q * W l q)))).
  - transitivity (sumn N (fun q => sumn r (fun k => sumn r (fun l => c k * (P i k * V k q) * (d l * (W l q * Q j l)))))).
    + apply sumn_ext. intros q _. rewrite <- sumn_scal_r. apply sumn_ext. intros k _. now rewrite sumn_scal.
    + rewrite sumn_swap. apply sumn_ext. intros k _. rewrite sumn_swap. apply sumn_ext. intros l _. rewrite <- sumn_scal. apply sumn_ext. intros q _. ring.
  - apply sumn_ext. intros k Hk. rewrite <- (sum_delta r k (fun l => c k * d l * (P i k * Q j l)) Hk). apply sumn_ext. intros l Hl. now rewrite O.
Qed.

Section Pinv.
Variables (m n : nat) (a : nat -> nat -> R) (s : nat -> R) (u vt : nat -> nat -> R) (tol : R).
Hypothesis SVD : is_svd m n a s u vt.
Hypothesis Ht : 0 <= tol.
Let r := Nat.min m n.
(** the part of a with singular values above the tolerance, and the computed matrix *)
Definition kept (i j : nat) : R := sumn r (fun k => if Rltb tol (s k) then s k * (u i k * vt k j) else 0).
Definition pinv (i j : nat) : R := sumn r (fun k => if Rltb tol (s k) then vt k i * u j k / s k else 0).
Definition cs (k : nat) : R := if Rltb tol (s k) then s k else 0.
Definition ds (k : nat) : R := if Rltb tol (s k) then / s k else 0.
Lemma kept_c i j : kept i j = sumn r (fun k => cs k * (u i k * vt k j)).
Proof. apply sumn_ext. intros k _. unfold cs. destruct (Rltb tol (s k)); ring. Qed.
Lemma pinv_d i j : pinv i j = sumn r (fun k => ds k * (vt k i * u j k)).
Proof. apply sumn_ext. intros k _. unfold ds, Rdiv. destruct (Rltb tol (s k)); ring. Qed.
Definition es (k : nat) : R := if Rltb tol (s k) then 1 else 0.
Lemma cs_ds k : cs k * ds k = es k.
Proof. unfold cs, ds, es. destruct (Rltb_spec tol (s k)); [field; lra|ring]. Qed.
Lemma OU k l : (k < r)%nat -> (l < r)%nat -> sumn m (fun i => u i k * u i l) = if (k =? l)%nat then 1 else 0.
Proof. intros. apply SVD; unfold r in *; lia. Qed.
Lemma OV k l : (k < r)%nat -> (l < r)%nat -> sumn n (fun i => vt k i * vt l i) = if (k =? l)%nat then 1 else 0.
Proof. intros. apply SVD; unfold r in *; lia. Qed.
Lemma AX i j : mmul n kept pinv i j = sumn r (fun k => es k * (u i k * u j k)).
Proof.
  unfold mmul. rewrite (sumn_ext n _ (fun q => sumn r (fun k => cs k * (u i k * vt k q)) * sumn r (fun l => ds l * (vt l q * u j l)))) by (intros; rewrite kept_c, pinv_d; ring).
  rewrite (rank_prod n r cs ds u vt vt u i j OV). apply sumn_ext. intros k _. now rewrite cs_ds.
Qed.
Lemma XA i j : mmul m pinv kept i j = sumn r (fun k => es k * (vt k i * vt k j)).
Proof.
  unfold mmul. rewrite (sumn_ext m _ (fun q => sumn r (fun k => ds k * (vt k i * u q k)) * sumn r (fun l => cs l * (u q l * vt l j)))) by (intros; rewrite kept_c, pinv_d; ring).
  rewrite (rank_prod m r ds cs (fun i k => vt k i) (fun k q => u q k) (fun l q => u q l) (fun j l => vt l j) i j OU). apply sumn_ext. intros k _. now rewrite Rmult_comm with (r1 := ds k), cs_ds.
Qed.
Lemma pinv_penrose : penrose m n kept pinv.
Proof.
  unfold penrose, same. splits; intros i j Hi Hj.
  - unfold mmul at 1. rewrite (sumn_ext m _ (fun q => sumn r (fun k => es k * (u i k * u q k)) * sumn r (fun l => cs l * (u q l * vt l j)))) by (intros; rewrite AX, kept_c; ring).
    rewrite (rank_prod m r es cs u (fun k q => u q k) (fun l q => u q l) (fun j l => vt l j) i j OU), kept_c. apply sumn_ext. intros k _. unfold es, cs. destruct (Rltb tol (s k)); ring.
  - unfold mmul at 1. rewrite (sumn_ext n _ (fun q => sumn r (fun k => es k * (vt k i * vt k q)) * sumn r (fun l => ds l * (vt l q * u j l)))) by (intros; rewrite XA, pinv_d; ring).
    rewrite (rank_prod n r es ds (fun i k => vt k i) vt vt u i j OV), pinv_d. apply sumn_ext. intros k _. unfold es, ds. destruct (Rltb tol (s k)); ring.
  - rewrite !AX. apply sumn_ext. intros. ring.
  - rewrite !XA. apply sumn_ext. intros. ring.
Qed.
Lemma kept_all : (forall k, (k < r)%nat -> s k = 0 \/ tol < s k) -> same m n kept a.
Proof.
  intros H i j Hi Hj. destruct SVD as (_ & _ & _ & E). rewrite E by auto. apply sumn_ext. intros k Hk. destruct (Rltb_spec tol (s k)); [reflexivity|].
  destruct (H k Hk) as [->|]; [ring|lra].
Qed.
Lemma unit_le N (f : nat -> R) i : sumn N (fun q => f q * f q) = 1 -> (i < N)%nat -> Rabs (f i) <= 1.
Proof.
  intros E H. assert (f i * f i <= 1).
  { assert (S0 : sumn N (fun q => if (q =? i)%nat then f i * f i else 0) <= sumn N (fun q => f q * f q)).
    { apply sumn_le. intros q _. destruct (Nat.eqb_spec q i) as [->|]; [lra|apply Rle_0_sqr]. }
    rewrite (sumn_single N _ i H) in S0; [rewrite Nat.eqb_refl in S0; lra|intros q _ Nq; destruct (Nat.eqb_spec q i); [congruence|reflexivity]]. }
  apply Rabs_le. split; nra.
Qed.
Lemma kept_close i j : (i < m)%nat -> (j < n)%nat -> Rabs (a i j - kept i j) <= INR r * tol.
Proof.
  intros Hi Hj. destruct SVD as (O1 & O2 & P & E). rewrite E by auto. unfold kept. fold r. rewrite <- sumn_minus.
  eapply Rle_trans; [apply sumn_abs|]. rewrite <- sumn_const. apply sumn_le. intros k Hk. destruct (Rltb_spec tol (s k)).
  - rewrite Rminus_eq_0, Rabs_R0. auto.
  - rewrite Rminus_0_r, !Rabs_mult. specialize (P k Hk). rewrite (Rabs_pos_eq (s k)) by auto.
    assert (U1 : Rabs (u i k) <= 1). { apply (unit_le m (fun i => u i k) i); auto. rewrite OU by auto. now rewrite Nat.eqb_refl. }
    assert (V1 : Rabs (vt k j) <= 1). { apply (unit_le n (fun j => vt k j) j); auto. rewrite OV by auto. now rewrite Nat.eqb_refl. }
    pose proof (Rabs_pos (u i k)). pose proof (Rabs_pos (vt k j)).
    assert (Rabs (u i k) * Rabs (vt k j) <= 1) by nra. assert (0 <= Rabs (u i k) * Rabs (vt k j)) by nra. nra.
Qed.
End Pinv.

(** the Moore-Penrose inverse is unique *)
Lemma mmul_assoc m k a b c i j : mmul m (mmul k a b) c i j = mmul k a (mmul m b c) i j.
Proof.
  unfold mmul. transitivity (sumn m (fun l => sumn k (fun p => a i p * b p l * c l j))).
  - apply sumn_ext. intros. now rewrite sumn_scal_r.
  - rewrite sumn_swap. apply sumn_ext. intros p _. rewrite <- sumn_scal. apply sumn_ext. intros. ring.
Qed.
Lemma mmul_same m k n a a' b b' : same m k a a' -> same k n b b' -> same m n (mmul k a b) (mmul k a' b').
Proof. intros A B i j Hi Hj. apply sumn_ext. intros l Hl. now rewrite A, B. Qed.
Lemma same_trans m n a b c : same m n a b -> same m n b c -> same m n a c.
Proof. intros A B i j Hi Hj. now rewrite A, B. Qed.
Lemma same_sym m n a b : same m n a b -> same m n b a.
Proof. intros A i j Hi Hj. now rewrite A. Qed.
Lemma same_refl m n a : same m n a a.
Proof. intros i j Hi Hj. reflexivity. Qed.
Lemma same_assoc m n p q a b c : same m n (mmul p (mmul q a b) c) (mmul q a (mmul p b c)).
Proof. intros i j _ _. apply mmul_assoc. Qed.
Lemma tr_mul k a b i j : mmul k a b j i = mmul k (fun i l => b l i) (fun l j => a j l) i j.
Proof. unfold mmul. apply sumn_ext. intros. ring. Qed.

Lemma penrose_same m n k a g : same m n k a -> penrose m n k g -> penrose m n a g.
Proof.
  intros K (P1 & P2 & P3 & P4).
  assert (Q1 : same m m (mmul n a g) (mmul n k g)) by (apply (mmul_same m n m); auto using same_sym, same_refl).
  assert (Q2 : same n n (mmul m g a) (mmul m g k)) by (apply (mmul_same n m n); auto using same_sym, same_refl).
  unfold penrose. splits.
  - eapply same_trans; [apply (mmul_same m m n); [exact Q1|apply same_sym, K]|]. eapply same_trans; [exact P1|exact K].
  - eapply same_trans; [apply (mmul_same n n m); [exact Q2|apply same_refl]|]. exact P2.
  - intros i j Hi Hj. rewrite !Q1 by auto. auto.
  - intros i j Hi Hj. rewrite !Q2 by auto. auto.
Qed.

Theorem C98_penrose_unique m n a x y : penrose m n a x -> penrose m n a y -> same n m x y.
Proof.
  intros (X1 & X2 & X3 & X4) (Y1 & Y2 & Y3 & Y4).
  (* a x = a y *)
  assert (AXY : same m m (mmul n a x) (mmul n a y)).
  { intros i j Hi Hj.
    transitivity (mmul m (mmul n a y) (mmul n a x) i j).
    - transitivity (mmul n (mmul m (mmul n a y) a) x i j); [apply (mmul_same m n m); auto using same_sym, same_refl|apply mmul_assoc].
    - transitivity (mmul m (fun i l => mmul n a y l i) (fun l j => mmul n a x j l) i j); [apply (mmul_same m m m); auto|].
      rewrite <- (tr_mul m (mmul n a x) (mmul n a y) i j).
      transitivity (mmul n (mmul m (mmul n a x) a) y j i); [symmetry; apply mmul_assoc|].
      transitivity (mmul n a y j i); [apply (mmul_same m n m); auto using same_refl|]. now rewrite Y3. }
  assert (XAY : same n n (mmul m x a) (mmul m y a)).
  { intros i j Hi Hj.
    transitivity (mmul n (mmul m x a) (mmul m y a) i j).
    - transitivity (mmul m x (mmul m (mmul n a y) a) i j); [apply (mmul_same n m n); auto using same_sym, same_refl|].
      transitivity (mmul m x (mmul n a (mmul m y a)) i j); [apply (mmul_same n m n); auto using same_refl, same_assoc|symmetry; apply mmul_assoc].
    - transitivity (mmul n (fun i l => mmul m x a l i) (fun l j => mmul m y a j l) i j); [apply (mmul_same n n n); auto|].
      rewrite <- (tr_mul n (mmul m y a) (mmul m x a) i j).
      transitivity (mmul m y (mmul m (mmul n a x) a) j i).
      { rewrite mmul_assoc. apply (mmul_same n m n); [apply same_refl| |auto|auto]. intros p q Hp Hq. symmetry. apply mmul_assoc. }
      transitivity (mmul m y a j i); [apply (mmul_same n m n); auto using same_refl|]. now rewrite Y4. }
  intros i j Hi Hj. rewrite <- X2, <- Y2 by auto.
  transitivity (mmul n (mmul m y a) x i j); [apply (mmul_same n n m); auto using same_refl|].
  rewrite mmul_assoc. rewrite mmul_assoc. apply (mmul_same n m m); auto using same_refl.
Qed.

(* ------------------------------------------------------------------ *)
(** * The pseudo-inverse *)
Section PinvCode.
Variable dgesvd : nat -> nat -> list R -> nat -> nat -> nat -> Z * list R * list R * list R.
Hypothesis SPEC : dgesvd_spec dgesvd.

Lemma mat_lv (a : dmat R) m n f : is_matrix a m n f -> same m n (lv m (d_data a)) f.
Proof using. intros H i j Hi Hj. apply (mat_nth R 0 a m n f i j H Hi Hj). Qed.

Lemma is_svd_ext m n a b s u vt : same m n a b -> is_svd m n a s u vt -> is_svd m n b s u vt.
Proof using. intros H (O1 & O2 & P & E). unfold is_svd. splits; auto. intros i j Hi Hj. rewrite <- H by auto. auto. Qed.

(** mat_pseudo_inverse, when dgesvd converges, returns the Moore-Penrose inverse of a matrix that differs from a by at most
    min(m,n) * 1e-15 times the largest singular value in each entry, and that is a itself unless a has a positive
    singular value not above 1e-15 times the largest one *)
Theorem C98_pseudo_inverse ai a m n fa fi : is_matrix a m n fa -> is_matrix ai n m fi -> small m -> small n -> m <> 0%nat -> n <> 0%nat ->
  let '(info, s, u, vt) := dgesvd m n (d_data a) m m n in
  (info <> 0%Z -> exists e, mat_pseudo_inverse dgesvd ai a = Err e) /\
  (info = 0%Z -> exists ai' x k smax, mat_pseudo_inverse dgesvd ai a = Ok ai' /\ is_matrix ai' n m x /\
     penrose m n k x /\ In smax s /\ (forall sv, In sv s -> 0 <= sv <= smax) /\
     (forall i j, (i < m)%nat -> (j < n)%nat -> Rabs (fa i j - k i j) <= INR (Nat.min m n) * (/ 10 ^ 15 * smax)) /\
     ((forall sv, In sv s -> sv = 0 \/ / 10 ^ 15 * smax < sv) -> penrose m n fa x)).
Proof using SPEC.
  change (/ 10 ^ 15) with SINGLE_VALUE_RCOND. intros HA HI Sm Sn Nm Nn. pose proof (SPEC m n (d_data a) m m n) as SP. destruct (dgesvd m n (d_data a) m m n) as [[[info s] u] vt] eqn:ED.
  destruct SP as (_ & _ & SP). unfold mat_pseudo_inverse, mat_svd. assert (HA' := HA). assert (HI' := HI). destruct HA' as (-> & -> & LA & _), HI' as (RI & CI & LI & _).
  rewrite RI, CI, !Nat.eqb_refl. simpl. rewrite (proj2 (Nat.eqb_neq m 0)) by auto. simpl.
  set (r := if (m <? n)%nat then m else n). assert (Er : r = Nat.min m n) by (unfold r; destruct (Nat.ltb_spec m n); lia).
  rewrite repeat_length, !Nat.eqb_refl. simpl. rewrite !(small_i32 R 0) by auto. simpl. rewrite ED.
  split; intros Hinfo.
  - destruct (Z.ltb_spec info 0); simpl; [eauto|]. destruct (Z.ltb_spec 0 info); simpl; [eauto|]. lia.
  - subst info. simpl. specialize (SP eq_refl eq_refl eq_refl eq_refl LA). destruct SP as (Ls & Lu & Lvt & SVD).
    apply (is_svd_ext m n _ fa) in SVD; [|apply (mat_lv a m n fa HA)].
    assert (Hs : s <> []) by (intros ->; simpl in Ls; lia).
    destruct (idamax_spec s Hs) as (I1 & I2). rewrite (vget_ok _ _ 0) by auto. simpl. set (smax := nth (idamax s) s 0) in *.
    assert (Hnn : forall sv, In sv s -> 0 <= sv). { intros sv Hin. apply (In_nth _ _ 0) in Hin. destruct Hin as (k & Hk & <-). apply SVD. lia. }
    assert (Hmax : forall sv, In sv s -> 0 <= sv <= smax).
    { intros sv Hin. split; auto. destruct I2 as [I2 _]. specialize (I2 (Rabs sv) (in_map _ _ _ Hin)). rewrite Rabs_pos_eq in I2 by auto. rewrite Rabs_pos_eq in I2; auto. apply Hnn. apply nth_In. auto. }
    assert (Hsm : In smax s) by (apply nth_In; auto).
    set (tol := SINGLE_VALUE_RCOND * smax).
    assert (Htol : 0 <= tol). { unfold tol, SINGLE_VALUE_RCOND. apply Rmult_le_pos; [|apply (Hmax smax); auto]. left. apply Rinv_0_lt_compat. apply pow_lt. lra. }
    set (g := fun i j => pinv m n (fun k => nth k s 0) (lv m u) (lv n vt) tol i j).
    set (body := fun i j (ai : dmat R) => ai <- d_set ai i j 0 ;;
      for_range 0 r (fun k ai => sk <- vget s k ;; if Rltb tol sk then
          x <- d_get (with_data R (d_new R 0 n n) vt) k i ;; y <- d_get (with_data R (d_new R 0 m m) u) j k ;; d_add R Rplus ai i j (x * y / sk)
        else Ok ai) ai).
    assert (HB : forall i j d, (i < n)%nat -> (j < m)%nat -> length d = (n * m)%nat -> body i j (mkD n m d) = Ok (mkD n m (upd d (i + j * n) (g i j)))).
    { intros i j d Hi Hj Ld. assert (Hp : (i + j * n < length d)%nat) by (rewrite Ld; apply idx_lt; auto). unfold body, d_set. simpl. rewrite vset_ok by auto. simpl.
      set (h := fun k => if Rltb tol (nth k s 0) then lv n vt k i * lv m u j k / nth k s 0 else 0).
      destruct (for_range_inv (fun k x => x = mkD n m (upd d (i + j * n) (sumn k h)))
        (fun k ai => sk <- vget s k ;; if Rltb tol sk then
          x <- d_get (with_data R (d_new R 0 n n) vt) k i ;; y <- d_get (with_data R (d_new R 0 m m) u) j k ;; d_add R Rplus ai i j (x * y / sk)
        else Ok ai) 0 r (mkD n m (upd d (i + j * n) 0))) as (x & E & ->).
      - lia.
      - reflexivity.
      - intros k x Hk ->. rewrite (vget_ok _ _ 0) by lia. cbn [bind]. change (sumn (S k) h) with (sumn k h + h k). destruct (Rltb tol (nth k s 0)) eqn:Q.
        + replace (h k) with (lv n vt k i * lv m u j k / nth k s 0) by (unfold h; rewrite Q; reflexivity). unfold d_get, with_data. simpl. rewrite (vget_ok _ _ 0) by (rewrite Lvt; apply idx_lt; lia). cbn [bind]. rewrite (vget_ok _ _ 0) by (rewrite Lu; apply idx_lt; lia). cbn [bind].
          unfold d_add. simpl. rewrite (vget_ok _ _ 0) by (rewrite upd_length; auto). cbn [bind]. rewrite nth_upd_eq by auto. rewrite vset_ok by (rewrite upd_length; auto). simpl.
          eexists. split; [reflexivity|]. f_equal. apply nth_ext_d with (d := 0); rewrite !upd_length; auto. intros q Hq. rewrite !nth_upd by (rewrite ?upd_length; auto). destruct (q =? i + j * n)%nat; reflexivity.
        + replace (h k) with 0 by (unfold h; rewrite Q; reflexivity). eexists. split; [reflexivity|]. now rewrite Rplus_0_r.
      - unfold g, pinv. rewrite <- Er. exact E. }
    destruct (for_range_inv (fun i x => exists d, x = mkD n m d /\ length d = (n * m)%nat /\ forall i' j', (i' < i)%nat -> (j' < m)%nat -> nth (i' + j' * n) d 0 = g i' j')
       (fun i ai => for_range 0 m (body i) ai) 0 n ai) as (x & E & d & -> & Ld & V).
    + lia.
    + exists (d_data ai). destruct ai; simpl in *; subst. splits; auto. intros; lia.
    + intros i x Hi (d & -> & Ld & V).
      destruct (for_range_inv (fun j x => exists d', x = mkD n m d' /\ length d' = (n * m)%nat /\ (forall i' j', (i' < i)%nat -> (j' < m)%nat -> nth (i' + j' * n) d' 0 = g i' j') /\ (forall j', (j' < j)%nat -> nth (i + j' * n) d' 0 = g i j'))
        (body i) 0 m (mkD n m d)) as (x & E & d' & -> & Ld' & V1 & V2).
      * lia.
      * exists d. splits; auto. intros; lia.
      * intros j x Hj (d' & -> & Ld' & V1 & V2). rewrite HB by (auto; lia). eexists. split; [reflexivity|]. eexists. split; [reflexivity|]. rewrite upd_length. splits; auto.
        -- intros i' j' Hi' Hj'. rewrite nth_upd by (rewrite Ld'; apply idx_lt; lia). destruct (Nat.eqb_spec (i' + j' * n) (i + j * n)) as [Q|Q]; [apply idx_inj in Q; lia|auto].
        -- intros j' Hj'. rewrite nth_upd by (rewrite Ld'; apply idx_lt; lia). destruct (Nat.eqb_spec (i + j' * n) (i + j * n)) as [Q|Q]; [apply idx_inj in Q; try lia; destruct Q as [_ ->]; auto|].
           apply V2. destruct (Nat.eq_dec j' j); [subst; congruence|lia].
      * exists (mkD n m d'). split; [exact E|]. exists d'. splits; auto. intros i' j' Hi' Hj'. destruct (Nat.eq_dec i' i) as [->|]; [apply V2; auto|apply V1; lia].
    + exists (mkD n m d), g, (kept m n (fun k => nth k s 0) (lv m u) (lv n vt) tol), smax. splits; auto.
      * apply is_matrix_dval with (zero := 0); auto.
      * apply (pinv_penrose m n fa); auto.
      * intros i j Hi Hj. apply kept_close; auto.
      * intros Hc. apply (penrose_same m n (kept m n (fun k => nth k s 0) (lv m u) (lv n vt) tol)); [|apply (pinv_penrose m n fa); auto].
        apply kept_all; auto. intros k Hk. apply Hc. apply nth_In. lia.
Qed.

(** wrong sizes are refused *)
Theorem C98_pseudo_inverse_sizes ai a : d_nrow ai <> d_ncol a \/ d_ncol ai <> d_nrow a -> mat_pseudo_inverse dgesvd ai a = Err "matrices are incompatible".
Proof using.
  intros H. unfold mat_pseudo_inverse. destruct (Nat.eqb_spec (d_nrow ai) (d_ncol a)); simpl; auto. destruct (Nat.eqb_spec (d_ncol ai) (d_nrow a)); simpl; auto. lia.
Qed.

(** The pseudo-inverse of a matrix with no rows but some columns (or the other way around) is the empty matrix of the
    transposed size. mat_pseudo_inverse handles only the 0 by 0 case; otherwise it passes a leading dimension 0 to
    dgesvd and fails ("An argument had an illegal value"), although mat_inverse, mat_mat_mul and others accept empty matrices. *)
Theorem C98_pinv_empty_refuted : forall p, small p -> p <> 0%nat ->
  mat_pseudo_inverse dgesvd (d_new R 0 p 0) (d_new R 0 0 p) = Err "LAPACK ERROR (dgesvd): An argument had an illegal value" /\
  mat_pseudo_inverse dgesvd (d_new R 0 0 p) (d_new R 0 p 0) = Err "LAPACK ERROR (dgesvd): An argument had an illegal value" /\
  penrose 0 p (fun _ _ => 0) (fun _ _ => 0) /\ penrose p 0 (fun _ _ => 0) (fun _ _ => 0).
Proof using SPEC.
  intros p Sp Np. splits.
  - unfold mat_pseudo_inverse, mat_svd. simpl. rewrite Nat.eqb_refl. simpl. rewrite (proj2 (Nat.eqb_neq p 0)) by auto. simpl.
    replace (length (repeat 0 (if (0 <? p)%nat then 0 else p)%nat)) with (if (0 <? p)%nat then 0 else p)%nat by (rewrite repeat_length; reflexivity).
    rewrite !Nat.eqb_refl. simpl. rewrite (small_i32 R 0 p) by auto. rewrite ?(small_i32 R 0 0%nat) by (unfold small; lia). simpl.
    pose proof (SPEC 0 p [] 0 0 p)%nat as SP. destruct (dgesvd 0%nat p [] 0%nat 0%nat p) as [[[info s] u] vt]. destruct SP as (SP & _ & _). rewrite (proj2 (Z.ltb_lt info 0)); [reflexivity|]. apply SP. simpl. lia.
  - unfold mat_pseudo_inverse, mat_svd. simpl. rewrite Nat.eqb_refl. simpl. rewrite (proj2 (Nat.eqb_neq p 0)) by auto. simpl.
    rewrite ?Nat.eqb_refl. simpl. rewrite (small_i32 R 0 p) by auto. rewrite ?(small_i32 R 0 0%nat) by (unfold small; lia). simpl.
    replace (repeat 0 (p * 0)) with (@nil R) by (rewrite Nat.mul_0_r; reflexivity).
    pose proof (SPEC p 0 [] p p 0)%nat as SP. destruct (dgesvd p 0%nat [] p p 0%nat) as [[[info s] u] vt]. destruct SP as (_ & SP & _). rewrite (proj2 (Z.ltb_lt info 0)); [reflexivity|]. apply SP. simpl. lia.
  - unfold penrose, same, mmul; splits; intros; try lia; simpl; ring.
  - unfold penrose, same, mmul; splits; intros; try lia; simpl; ring.
Qed.
End PinvCode.

(* ------------------------------------------------------------------ *)
(** * Eigenvectors *)

Local Notation C := Complex.C.
(** A v = lambda v and u^H A = lambda u^H, with unit length, in the complex numbers *)
Definition unit_length (n : nat) (v : nat -> C) : Prop := sumn n (fun i => fst (v i) * fst (v i) + snd (v i) * snd (v i)) = 1.
Definition right_eigen (n : nat) (a : nat -> nat -> R) (v : nat -> C) (lambda : C) : Prop :=
  unit_length n v /\ forall i, (i < n)%nat -> total (RtoC 0) Cplus n (fun l => RtoC (a i l) * v l)%C = (lambda * v i)%C.
Definition left_eigen (n : nat) (a : nat -> nat -> R) (u : nat -> C) (lambda : C) : Prop :=
  unit_length n u /\ forall j, (j < n)%nat -> total (RtoC 0) Cplus n (fun l => Cconj (u l) * RtoC (a l j))%C = (lambda * Cconj (u j))%C.

(** the compact form of LAPACK, from column j on: a real eigenvalue has one column; a pair of conjugate eigenvalues, the one
    with positive imaginary part first, has two columns, the real and the imaginary part of the first eigenvector;
    [K v lambda] says that v belongs to lambda *)
Inductive compact (n : nat) (wr wi : nat -> R) (x : nat -> nat -> R) (K : (nat -> C) -> C -> Prop) : nat -> Prop :=
| compact_end : compact n wr wi x K n
| compact_real j : (j < n)%nat -> wi j = 0 -> K (fun i => RtoC (x i j)) (RtoC (wr j)) -> compact n wr wi x K (j + 1) -> compact n wr wi x K j
| compact_pair j : (j + 1 < n)%nat -> 0 < wi j -> wi (j + 1)%nat = - wi j -> wr (j + 1)%nat = wr j ->
    K (fun i => (x i j, x i (j + 1)%nat)) (wr j, wi j) -> compact n wr wi x K (j + 2) -> compact n wr wi x K j.

(** what LAPACK documents for dgeev *)
Definition dgeev_spec (dgeev : bool -> bool -> nat -> list R -> nat -> nat -> nat -> Z * list R * list R * list R * list R) : Prop :=
  forall cl cr n a ldl ldr, let '(info, wr, wi, vl, vr) := dgeev cl cr n a n ldl ldr in
  info = 0%Z -> length a = (n * n)%nat ->
  length wr = n /\ length wi = n /\
  (cl = true -> ldl = n -> length vl = (n * n)%nat /\ compact n (fun j => nth j wr 0) (fun j => nth j wi 0) (lv n vl) (left_eigen n (lv n a)) 0) /\
  (cr = true -> ldr = n -> length vr = (n * n)%nat /\ compact n (fun j => nth j wr 0) (fun j => nth j wi 0) (lv n vr) (right_eigen n (lv n a)) 0).

Lemma total_ext {A} (z : A) add n f g : (forall i, (i < n)%nat -> f i = g i) -> total z add n f = total z add n g.
Proof. induction n as [|n IH]; simpl; intros H; auto. rewrite IH by (intros; apply H; lia). now rewrite H by lia. Qed.
Lemma total_conj n f : Cconj (total (RtoC 0) Cplus n f) = total (RtoC 0) Cplus n (fun i => Cconj (f i)).
Proof.
  induction n as [|n IH]; simpl; [unfold Cconj, RtoC; simpl; f_equal; ring|]. rewrite <- IH. unfold Cconj, Cplus; simpl. f_equal. ring.
Qed.
Lemma Cconj_mult a b : Cconj (a * b)%C = (Cconj a * Cconj b)%C.
Proof. unfold Cconj, Cmult; simpl. f_equal; ring. Qed.
Lemma Cconj_R r : Cconj (RtoC r) = RtoC r.
Proof. unfold Cconj, RtoC; simpl. f_equal. ring. Qed.

(** two properties of the relations *)
Definition good_rel (n : nat) (K : (nat -> C) -> C -> Prop) : Prop :=
  (forall v v' l, (forall i, (i < n)%nat -> v i = v' i) -> K v l -> K v' l) /\
  (forall v l, K v l -> K (fun i => Cconj (v i)) (Cconj l)).
Lemma unit_ext n v v' : (forall i, (i < n)%nat -> v i = v' i) -> unit_length n v -> unit_length n v'.
Proof. intros H U. unfold unit_length in *. rewrite <- U. apply sumn_ext. intros i Hi. now rewrite H. Qed.
Lemma unit_conj n v : unit_length n v -> unit_length n (fun i => Cconj (v i)).
Proof. intros U. unfold unit_length in *. rewrite <- U. apply sumn_ext. intros i Hi. unfold Cconj; simpl. ring. Qed.
Lemma good_right n a : good_rel n (right_eigen n a).
Proof.
  split.
  - intros v v' l H [U E]. split; [eapply unit_ext; eauto|]. intros i Hi. rewrite <- (H i Hi), <- E by auto. apply total_ext. intros k Hk. now rewrite H.
  - intros v l [U E]. split; [apply unit_conj; auto|]. intros i Hi. rewrite <- Cconj_mult, <- E by auto. rewrite total_conj. apply total_ext. intros k Hk. now rewrite Cconj_mult, Cconj_R.
Qed.
Lemma good_left n a : good_rel n (left_eigen n a).
Proof.
  split.
  - intros v v' l H [U E]. split; [eapply unit_ext; eauto|]. intros i Hi. rewrite <- (H i Hi), <- E by auto. apply total_ext. intros k Hk. now rewrite H.
  - intros v l [U E]. split; [apply unit_conj; auto|]. intros i Hi. rewrite <- Cconj_mult, <- E by auto. rewrite total_conj. apply total_ext. intros k Hk. now rewrite Cconj_mult, Cconj_R.
Qed.

(** one column or one pair of columns *)
Lemma pair_cols n j v a b : length v = (n * n)%nat -> length a = (n * n)%nat -> length b = (n * n)%nat -> (j + 1 < n)%nat ->
  exists a' b', for_range 0 n (pair_row n j v) (a, b) = Ok (a', b') /\ length a' = (n * n)%nat /\ length b' = (n * n)%nat /\
    (forall i, (i < n)%nat -> lv n a' i j = lv n v i j /\ lv n b' i j = lv n v i (j + 1) /\ lv n a' i (j + 1) = lv n v i j /\ lv n b' i (j + 1) = - lv n v i (j + 1)) /\
    (forall i c, (i < n)%nat -> (c < j)%nat -> lv n a' i c = lv n a i c /\ lv n b' i c = lv n b i c).
Proof.
  intros Lv La Lb Hj.
  destruct (for_range_inv (fun k o => length (fst o) = (n * n)%nat /\ length (snd o) = (n * n)%nat /\
    (forall i, (i < k)%nat -> lv n (fst o) i j = lv n v i j /\ lv n (snd o) i j = lv n v i (j + 1) /\ lv n (fst o) i (j + 1) = lv n v i j /\ lv n (snd o) i (j + 1) = - lv n v i (j + 1)) /\
    (forall i c, (i < n)%nat -> (c < j)%nat -> lv n (fst o) i c = lv n a i c /\ lv n (snd o) i c = lv n b i c)) (pair_row n j v) 0 n (a, b)) as ([a' b'] & E & L1 & L2 & V & F).
  - lia.
  - simpl. splits; auto; intros; lia.
  - intros i [x y] Hi (L1 & L2 & V & F). simpl in L1, L2, V, F.
    assert (P1 : (i + j * n < n * n)%nat) by (apply idx_lt; lia). assert (P2 : (i + (j + 1) * n < n * n)%nat) by (apply idx_lt; lia).
    unfold pair_row. rewrite (vget_ok v _ 0), (vget_ok v _ 0) by lia. cbn [bind]. repeat (rewrite vset_ok by (rewrite ?upd_length; lia); cbn [bind]).
    eexists. split; [reflexivity|]. simpl fst. simpl snd. rewrite !upd_length. split; [auto|]. split; [auto|]. unfold lv in *. split.
    + intros i' Hi'. rewrite !nth_upd by (rewrite ?upd_length; lia).
      assert (N1 : (i' + j * n <> i + (j + 1) * n)%nat) by (intros Q; apply idx_inj in Q; lia).
      assert (N2 : (i' + (j + 1) * n <> i + j * n)%nat) by (intros Q; apply idx_inj in Q; lia).
      rewrite (proj2 (Nat.eqb_neq _ _) N1), (proj2 (Nat.eqb_neq _ _) N2).
      destruct (Nat.eq_dec i' i) as [->|Ni]; [rewrite !Nat.eqb_refl; auto|].
      rewrite (proj2 (Nat.eqb_neq (i' + j * n) (i + j * n))) by lia. rewrite (proj2 (Nat.eqb_neq (i' + (j + 1) * n) (i + (j + 1) * n))) by lia. apply V. lia.
    + intros i' c Hi' Hc. rewrite !nth_upd by (rewrite ?upd_length; lia).
      rewrite (proj2 (Nat.eqb_neq (i' + c * n) (i + j * n))) by (intros Q; apply idx_inj in Q; lia).
      rewrite (proj2 (Nat.eqb_neq (i' + c * n) (i + (j + 1) * n))) by (intros Q; apply idx_inj in Q; lia). apply F; auto.
  - exists a', b'. auto.
Qed.
Lemma real_cols n j v a b : length v = (n * n)%nat -> length a = (n * n)%nat -> length b = (n * n)%nat -> (j < n)%nat ->
  exists a' b', for_range 0 n (real_row n j v) (a, b) = Ok (a', b') /\ length a' = (n * n)%nat /\ length b' = (n * n)%nat /\
    (forall i, (i < n)%nat -> lv n a' i j = lv n v i j /\ lv n b' i j = 0) /\
    (forall i c, (i < n)%nat -> (c < j)%nat -> lv n a' i c = lv n a i c /\ lv n b' i c = lv n b i c).
Proof.
  intros Lv La Lb Hj.
  destruct (for_range_inv (fun k o => length (fst o) = (n * n)%nat /\ length (snd o) = (n * n)%nat /\
    (forall i, (i < k)%nat -> lv n (fst o) i j = lv n v i j /\ lv n (snd o) i j = 0) /\
    (forall i c, (i < n)%nat -> (c < j)%nat -> lv n (fst o) i c = lv n a i c /\ lv n (snd o) i c = lv n b i c)) (real_row n j v) 0 n (a, b)) as ([a' b'] & E & L1 & L2 & V & F).
  - lia.
  - simpl. splits; auto; intros; lia.
  - intros i [x y] Hi (L1 & L2 & V & F). simpl in L1, L2, V, F.
    assert (P1 : (i + j * n < n * n)%nat) by (apply idx_lt; lia).
    unfold real_row. rewrite (vget_ok v _ 0) by lia. cbn [bind]. repeat (rewrite vset_ok by (rewrite ?upd_length; lia); cbn [bind]).
    eexists. split; [reflexivity|]. simpl fst. simpl snd. rewrite !upd_length. split; [auto|]. split; [auto|]. unfold lv in *. split.
    + intros i' Hi'. rewrite !nth_upd by (rewrite ?upd_length; lia).
      destruct (Nat.eq_dec i' i) as [->|Ni]; [rewrite !Nat.eqb_refl; auto|].
      rewrite (proj2 (Nat.eqb_neq (i' + j * n) (i + j * n))) by lia. apply V. lia.
    + intros i' c Hi' Hc. rewrite !nth_upd by (rewrite ?upd_length; lia).
      rewrite (proj2 (Nat.eqb_neq (i' + c * n) (i + j * n))) by (intros Q; apply idx_inj in Q; lia). apply F; auto.
  - exists a', b'. auto.
Qed.

(** the product of two independent loops *)
Lemma both_range {A B} (f : nat -> nat -> A -> res A) (g : nat -> nat -> B -> res B) j k a b a' b' :
  for_range 0 k (f j) a = Ok a' -> for_range 0 k (g j) b = Ok b' -> for_range 0 k (both f g j) (a, b) = Ok (a', b').
Proof.
  unfold for_range. rewrite Nat.sub_0_r. generalize 0%nat. revert a b. induction k as [|k IH]; intros a b lo; simpl.
  - intros E1 E2. injection E1 as ->. injection E2 as ->. reflexivity.
  - destruct (f j lo a) as [x| |] eqn:E1; simpl; try discriminate. destruct (g j lo b) as [y| |] eqn:E2; simpl; try discriminate. intros F1 F2. now apply IH.
Qed.

Section Loop.
Variables (n : nat) (wr wi : list R).
Hypothesis Lwi : length wi = n.
Notation WR := (fun j => nth j wr 0).
Notation WI := (fun j => nth j wi 0).
(** columns c >= j of (a, b) belong to the eigenvalues *)
Definition good_cols (K : (nat -> C) -> C -> Prop) (j : nat) (o : list R * list R) : Prop :=
  forall c, (j <= c < n)%nat -> K (fun i => (lv n (fst o) i c, lv n (snd o) i c)) (nth c wr 0, nth c wi 0).
Definition fits (o : list R * list R) : Prop := length (fst o) = (n * n)%nat /\ length (snd o) = (n * n)%nat.
Definition keeps_cols (j : nat) (o o' : list R * list R) : Prop :=
  forall i c, (i < n)%nat -> (c < j)%nat -> lv n (fst o') i c = lv n (fst o) i c /\ lv n (snd o') i c = lv n (snd o) i c.

(** a step of the loop for one set of vectors *)
Lemma step_real K v j o : good_rel n K -> length v = (n * n)%nat -> fits o -> (j < n)%nat -> WI j = 0 -> K (fun i => RtoC (lv n v i j)) (RtoC (WR j)) ->
  exists o', for_range 0 n (real_row n j v) o = Ok o' /\ fits o' /\ keeps_cols j o o' /\
    forall o2, keeps_cols (j + 1) o' o2 -> good_cols K (j + 1) o2 -> good_cols K j o2.
Proof using Lwi.
  intros [G1 G2] Lv [L1 L2] Hj Hw HK. destruct o as [a b]. simpl in *. destruct (real_cols n j v a b Lv L1 L2 Hj) as (a' & b' & E & La & Lb & V & F).
  exists (a', b'). split; [exact E|]. split; [split; auto|]. split; [exact F|]. intros o2 KC GC c Hc. destruct (Nat.eq_dec c j) as [->|]; [|apply GC; lia].
  rewrite Hw. apply (G1 (fun i => RtoC (lv n v i j))); [|exact HK]. intros i Hi. destruct (KC i j Hi) as [-> ->]; [lia|]. simpl. destruct (V i Hi) as [-> ->]. reflexivity.
Qed.
Lemma step_pair K v j o : good_rel n K -> length v = (n * n)%nat -> fits o -> (j + 1 < n)%nat -> WI (j + 1)%nat = - WI j -> WR (j + 1)%nat = WR j ->
  K (fun i => (lv n v i j, lv n v i (j + 1))) (WR j, WI j) ->
  exists o', for_range 0 n (pair_row n j v) o = Ok o' /\ fits o' /\ keeps_cols j o o' /\
    forall o2, keeps_cols (j + 2) o' o2 -> good_cols K (j + 2) o2 -> good_cols K j o2.
Proof using Lwi.
  intros [G1 G2] Lv [L1 L2] Hj Hw Hr HK. destruct o as [a b]. simpl in *. destruct (pair_cols n j v a b Lv L1 L2 Hj) as (a' & b' & E & La & Lb & V & F).
  exists (a', b'). split; [exact E|]. split; [split; auto|]. split; [exact F|]. intros o2 KC GC c Hc. destruct (Nat.eq_dec c j) as [->|]; [|destruct (Nat.eq_dec c (j + 1)) as [->|]; [|apply GC; lia]].
  - apply (G1 (fun i => (lv n v i j, lv n v i (j + 1)))); [|exact HK]. intros i Hi. destruct (KC i j Hi) as [-> ->]; [lia|]. simpl. destruct (V i Hi) as (-> & -> & _). reflexivity.
  - rewrite Hw, Hr. apply (G1 (fun i => Cconj (lv n v i j, lv n v i (j + 1)))); [|exact (G2 _ _ HK)]. intros i Hi. destruct (KC i (j + 1)%nat Hi) as [-> ->]; [lia|]. simpl. destruct (V i Hi) as (_ & _ & -> & ->). reflexivity.
Qed.
Lemma keeps_trans j j' o o1 o2 : (j <= j')%nat -> keeps_cols j o o1 -> keeps_cols j' o1 o2 -> keeps_cols j o o2.
Proof using Lwi. intros H A B i c Hi Hc. destruct (B i c Hi) as [-> ->]; [lia|]. apply A; auto. Qed.

Lemma abs_pos_ltb x : x <> 0 -> Rltb 0 (Rabs x) = true.
Proof using. intros H. destruct (Rltb_spec 0 (Rabs x)) as [|N]; auto. pose proof (Rabs_pos_lt x H). lra. Qed.
Lemma abs_zero_ltb : Rltb 0 (Rabs 0) = false.
Proof using. rewrite Rabs_R0. destruct (Rltb_spec 0 0); auto. lra. Qed.

Lemma loop_one K v : good_rel n K -> length v = (n * n)%nat -> forall fuel j o, (n < j + fuel)%nat -> fits o -> compact n WR WI (lv n v) K j ->
  exists o', geev_loop n (fun j => pair_row n j v) (fun j => real_row n j v) wi fuel j o = Ok o' /\ fits o' /\ keeps_cols j o o' /\ good_cols K j o'.
Proof using Lwi.
  intros G Lv. induction fuel as [|fuel IH]; intros j o Hf Ho HC.
  { inversion HC; lia. }
  simpl. inversion HC as [Ej|j' Hj Hw HK HC' Ej|j' Hj Hw Hw1 Hr HK HC' Ej]; subst j' || subst j.
  - rewrite Nat.ltb_irrefl. exists o. splits; auto; [intros i c Hi Hc; auto|intros c Hc; lia].
  - rewrite (proj2 (Nat.ltb_lt _ _)) by auto. rewrite (vget_ok _ _ 0) by lia. cbn [bind]. rewrite Hw, abs_zero_ltb.
    destruct (step_real K v j o G Lv Ho Hj Hw HK) as (o1 & E1 & F1 & K1 & S1). rewrite E1. cbn [bind].
    destruct (IH (j + 1)%nat o1) as (o2 & E2 & F2 & K2 & G2); auto; [lia|]. exists o2. splits; auto. apply (keeps_trans j (j + 1) o o1); auto. lia.
  - rewrite (proj2 (Nat.ltb_lt _ _)) by lia. rewrite (vget_ok _ _ 0) by lia. cbn [bind]. rewrite abs_pos_ltb by lra.
    unfold usub. rewrite (proj2 (Nat.leb_le 2 n)) by lia. cbn [bind]. rewrite (proj2 (Nat.ltb_ge (n - 2) j)) by lia.
    destruct (step_pair K v j o G Lv Ho Hj Hw1 Hr HK) as (o1 & E1 & F1 & K1 & S1). rewrite E1. cbn [bind].
    destruct (IH (j + 2)%nat o1) as (o2 & E2 & F2 & K2 & G2); auto; [lia|]. exists o2. splits; auto. apply (keeps_trans j (j + 2) o o1); auto. lia.
Qed.

Lemma loop_two K1 K2 v1 v2 : good_rel n K1 -> good_rel n K2 -> length v1 = (n * n)%nat -> length v2 = (n * n)%nat -> forall fuel j o1 o2, (n < j + fuel)%nat -> fits o1 -> fits o2 ->
  compact n WR WI (lv n v1) K1 j -> compact n WR WI (lv n v2) K2 j ->
  exists p1 p2, geev_loop n (both (fun j => pair_row n j v1) (fun j => pair_row n j v2)) (both (fun j => real_row n j v1) (fun j => real_row n j v2)) wi fuel j (o1, o2) = Ok (p1, p2) /\
    fits p1 /\ fits p2 /\ keeps_cols j o1 p1 /\ keeps_cols j o2 p2 /\ good_cols K1 j p1 /\ good_cols K2 j p2.
Proof using Lwi.
  intros G1 G2 L1 L2. induction fuel as [|fuel IH]; intros j o1 o2 Hf Ho1 Ho2 HC1 HC2.
  { inversion HC1; lia. }
  simpl. inversion HC1 as [Ej|j' Hj Hw HK HC' Ej|j' Hj Hw Hw1 Hr HK HC' Ej]; subst j' || subst j.
  - rewrite Nat.ltb_irrefl. exists o1, o2. splits; auto; try (intros i c Hi Hc; auto); intros c Hc; lia.
  - inversion HC2 as [Ej|j' _ _ HK2 HC2' Ej|j' _ Hw2 _ _ _ _ Ej]; try lia; try lra; subst j'.
    rewrite (proj2 (Nat.ltb_lt _ _)) by auto. rewrite (vget_ok _ _ 0) by lia. cbn [bind]. rewrite Hw, abs_zero_ltb.
    destruct (step_real K1 v1 j o1 G1 L1 Ho1 Hj Hw HK) as (p1 & E1 & F1 & Q1 & S1). destruct (step_real K2 v2 j o2 G2 L2 Ho2 Hj Hw HK2) as (p2 & E2 & F2 & Q2 & S2).
    rewrite (both_range _ _ j n _ _ _ _ E1 E2). cbn [bind].
    destruct (IH (j + 1)%nat p1 p2) as (r1 & r2 & E3 & F3 & F4 & Q3 & Q4 & G3 & G4); auto; [lia|]. exists r1, r2. splits; auto; [apply (keeps_trans j (j + 1) o1 p1)|apply (keeps_trans j (j + 1) o2 p2)]; auto; lia.
  - inversion HC2 as [Ej|j' _ Hw2 _ _ Ej|j' _ _ _ _ HK2 HC2' Ej]; try lia; try lra; subst j'.
    rewrite (proj2 (Nat.ltb_lt _ _)) by lia. rewrite (vget_ok _ _ 0) by lia. cbn [bind]. rewrite abs_pos_ltb by lra.
    unfold usub. rewrite (proj2 (Nat.leb_le 2 n)) by lia. cbn [bind]. rewrite (proj2 (Nat.ltb_ge (n - 2) j)) by lia.
    destruct (step_pair K1 v1 j o1 G1 L1 Ho1 Hj Hw1 Hr HK) as (p1 & E1 & F1 & Q1 & S1). destruct (step_pair K2 v2 j o2 G2 L2 Ho2 Hj Hw1 Hr HK2) as (p2 & E2 & F2 & Q2 & S2).
    rewrite (both_range _ _ j n _ _ _ _ E1 E2). cbn [bind].
    destruct (IH (j + 2)%nat p1 p2) as (r1 & r2 & E3 & F3 & F4 & Q3 & Q4 & G3 & G4); auto; [lia|]. exists r1, r2. splits; auto; [apply (keeps_trans j (j + 2) o1 p1)|apply (keeps_trans j (j + 2) o2 p2)]; auto; lia.
Qed.
End Loop.

Section EigenCode.
Variable dgeev : bool -> bool -> nat -> list R -> nat -> nat -> nat -> Z * list R * list R * list R * list R.
Hypothesis SPEC : dgeev_spec dgeev.

Lemma right_ext n a b v l : same n n a b -> right_eigen n a v l -> right_eigen n b v l.
Proof using. intros H [U E]. split; auto. intros i Hi. rewrite <- E by auto. apply total_ext. intros k Hk. now rewrite H. Qed.
Lemma left_ext n a b v l : same n n a b -> left_eigen n a v l -> left_eigen n b v l.
Proof using. intros H [U E]. split; auto. intros i Hi. rewrite <- E by auto. apply total_ext. intros k Hk. now rewrite H. Qed.
Lemma lv_matrix (z : dmat R) n x : d_nrow z = n -> d_ncol z = n -> length x = (n * n)%nat -> is_matrix (with_data R z x) n n (lv n x).
Proof using. intros R1 C1 L. apply is_matrix_dval with (zero := 0); auto. Qed.

(** mat_eigen: column j of v_real + i v_imag is a unit eigenvector for the eigenvalue l_real_j + i l_imag_j, for every j *)
Theorem C98_eigen l_real l_imag v_real v_imag a n fa f1 f2 : is_matrix a n n fa -> is_matrix v_real n n f1 -> is_matrix v_imag n n f2 -> length l_real = n -> length l_imag = n -> small n ->
  let '(info, _, _, _, _) := dgeev false true n (d_data a) n 1%nat n in
  (info <> 0%Z -> exists e, mat_eigen dgeev l_real l_imag v_real v_imag a = Err e) /\
  (info = 0%Z -> exists lr li vr vi x y, mat_eigen dgeev l_real l_imag v_real v_imag a = Ok (lr, li, vr, vi) /\ length lr = n /\ length li = n /\
     is_matrix vr n n x /\ is_matrix vi n n y /\
     forall j, (j < n)%nat -> right_eigen n fa (fun i => (x i j, y i j)) (nth j lr 0, nth j li 0)).
Proof using SPEC.
  intros HA H1 H2 L1 L2 Sn. pose proof (SPEC false true n (d_data a) 1%nat n) as SP. destruct (dgeev false true n (d_data a) n 1%nat n) as [[[[info wr] wi] vl] vr] eqn:ED.
  unfold mat_eigen. assert (HA' := HA). destruct HA' as (-> & -> & LA & _), H1 as (R1 & C1 & M1 & _), H2 as (R2 & C2 & M2 & _). rewrite R1, C1, R2, C2, L1, L2, !Nat.eqb_refl. simpl.
  rewrite (small_i32 R 0 n) by auto. simpl. rewrite ED. split; intros Hinfo.
  - destruct (Z.ltb_spec info 0); simpl; [eauto|]. destruct (Z.ltb_spec 0 info); simpl; [eauto|]. lia.
  - subst info. simpl. destruct (SP eq_refl LA) as (Lr & Li & _ & SP2). destruct (SP2 eq_refl eq_refl) as (Lv & HC).
    unfold dgeev_data. rewrite Li, M1, M2, Lv, !Nat.eqb_refl. simpl.
    destruct (loop_one n wr wi Li _ vr (good_right n (lv n (d_data a))) Lv (n + 1)%nat 0%nat (d_data v_real, d_data v_imag)) as ([x y] & E & [F1 F2] & _ & G); [lia|split; auto|exact HC|].
    rewrite E. simpl. exists wr, wi, (with_data R v_real x), (with_data R v_imag y), (lv n x), (lv n y). splits; auto; try (apply lv_matrix; auto).
    intros j Hj. eapply right_ext; [apply (mat_lv a n n fa HA)|]. apply (G j). lia.
Qed.

(** mat_eigen_lr: the columns of u are left eigenvectors, those of v right eigenvectors, of the same eigenvalues *)
Theorem C98_eigen_lr l_real l_imag u_real u_imag v_real v_imag a n fa f1 f2 f3 f4 : is_matrix a n n fa -> is_matrix u_real n n f1 -> is_matrix u_imag n n f2 -> is_matrix v_real n n f3 -> is_matrix v_imag n n f4 ->
  length l_real = n -> length l_imag = n -> small n ->
  let '(info, _, _, _, _) := dgeev true true n (d_data a) n n n in
  (info <> 0%Z -> exists e, mat_eigen_lr dgeev l_real l_imag u_real u_imag v_real v_imag a = Err e) /\
  (info = 0%Z -> exists lr li ur ui vr vi p q x y, mat_eigen_lr dgeev l_real l_imag u_real u_imag v_real v_imag a = Ok (lr, li, ur, ui, vr, vi) /\ length lr = n /\ length li = n /\
     is_matrix ur n n p /\ is_matrix ui n n q /\ is_matrix vr n n x /\ is_matrix vi n n y /\
     forall j, (j < n)%nat -> left_eigen n fa (fun i => (p i j, q i j)) (nth j lr 0, nth j li 0) /\ right_eigen n fa (fun i => (x i j, y i j)) (nth j lr 0, nth j li 0)).
Proof using SPEC.
  intros HA H1 H2 H3 H4 L1 L2 Sn. pose proof (SPEC true true n (d_data a) n n) as SP. destruct (dgeev true true n (d_data a) n n n) as [[[[info wr] wi] vl] vr] eqn:ED.
  unfold mat_eigen_lr. assert (HA' := HA). destruct HA' as (-> & -> & LA & _), H1 as (R1 & C1 & M1 & _), H2 as (R2 & C2 & M2 & _), H3 as (R3 & C3 & M3 & _), H4 as (R4 & C4 & M4 & _).
  rewrite R1, C1, R2, C2, R3, C3, R4, C4, L1, L2, !Nat.eqb_refl. simpl.
  rewrite (small_i32 R 0 n) by auto. simpl. rewrite ED. split; intros Hinfo.
  - destruct (Z.ltb_spec info 0); simpl; [eauto|]. destruct (Z.ltb_spec 0 info); simpl; [eauto|]. lia.
  - subst info. simpl. destruct (SP eq_refl LA) as (Lr & Li & SP1 & SP2). destruct (SP1 eq_refl eq_refl) as (Lu & HC1). destruct (SP2 eq_refl eq_refl) as (Lv & HC2).
    unfold dgeev_data_lr. rewrite Li, M1, M2, M3, M4, Lu, Lv, !Nat.eqb_refl. simpl.
    destruct (loop_two n wr wi Li _ _ vl vr (good_left n (lv n (d_data a))) (good_right n (lv n (d_data a))) Lu Lv (n + 1)%nat 0%nat (d_data u_real, d_data u_imag) (d_data v_real, d_data v_imag)) as ([p q] & [x y] & E & [F1 F2] & [F3 F4] & _ & _ & G1 & G2);
      [lia|split; auto|split; auto|exact HC1|exact HC2|].
    rewrite E. simpl. exists wr, wi, (with_data R u_real p), (with_data R u_imag q), (with_data R v_real x), (with_data R v_imag y), (lv n p), (lv n q), (lv n x), (lv n y). splits; auto; try (apply lv_matrix; auto).
    intros j Hj. split; [eapply left_ext; [apply (mat_lv a n n fa HA)|]; apply (G1 j); lia|eapply right_ext; [apply (mat_lv a n n fa HA)|]; apply (G2 j); lia].
Qed.

(** wrong sizes are refused *)
Theorem C98_eigen_sizes l_real l_imag v_real v_imag a : d_nrow a <> d_ncol a \/ length l_real <> d_nrow a \/ length l_imag <> d_nrow a \/ d_nrow v_real <> d_nrow a \/ d_ncol v_real <> d_nrow a \/ d_nrow v_imag <> d_nrow a \/ d_ncol v_imag <> d_nrow a ->
  exists e, mat_eigen dgeev l_real l_imag v_real v_imag a = Err e.
Proof using.
  intros H. unfold mat_eigen.
  destruct (Nat.eqb_spec (d_nrow a) (d_ncol a)); simpl; [|eauto]. destruct (Nat.eqb_spec (length l_real) (d_nrow a)); simpl; [|eauto]. destruct (Nat.eqb_spec (length l_imag) (d_nrow a)); simpl; [|eauto].
  destruct (Nat.eqb_spec (d_nrow v_real) (d_nrow a)); simpl; [|eauto]. destruct (Nat.eqb_spec (d_ncol v_real) (d_nrow a)); simpl; [|eauto]. destruct (Nat.eqb_spec (d_nrow v_imag) (d_nrow a)); simpl; [|eauto]. destruct (Nat.eqb_spec (d_ncol v_imag) (d_nrow a)); simpl; [|eauto]. lia.
Qed.
Theorem C98_eigen_lr_sizes l_real l_imag u_real u_imag v_real v_imag a : d_nrow a <> d_ncol a \/ length l_real <> d_nrow a \/ length l_imag <> d_nrow a \/
  (exists x, In x [u_real; u_imag; v_real; v_imag] /\ (d_nrow x <> d_nrow a \/ d_ncol x <> d_nrow a)) ->
  exists e, mat_eigen_lr dgeev l_real l_imag u_real u_imag v_real v_imag a = Err e.
Proof using.
  intros H. unfold mat_eigen_lr. destruct (Nat.eqb_spec (d_nrow a) (d_ncol a)); simpl; [|eauto]. destruct (Nat.eqb_spec (length l_real) (d_nrow a)); simpl; [|eauto]. destruct (Nat.eqb_spec (length l_imag) (d_nrow a)); simpl; [|eauto].
  destruct H as [H|[H|[H|(x & I1 & H)]]]; try lia.
  assert (F : (d_nrow x =? d_nrow a)%nat && (d_ncol x =? d_nrow a)%nat = false). { apply andb_false_iff. rewrite !Nat.eqb_neq. lia. }
  destruct I1 as [<-|[<-|[<-|[<-|[]]]]]; rewrite F; rewrite ?andb_false_r; simpl; eauto.
Qed.
End EigenCode.

(* ------------------------------------------------------------------ *)
(** * Non-vacuity *)
Definition ex_a : list R := [3; 4].
Definition ex_dgesvd (m n : nat) (a : list R) (lda ldu ldvt : nat) : Z * list R * list R * list R :=
  if (lda <? Nat.max 1 m)%nat || (ldvt <? Nat.max 1 n)%nat then ((-6)%Z, [], [], [])
  else if (m =? 2)%nat && (n =? 1)%nat then if list_eq_dec Req_EM_T a ex_a then (0%Z, [5], [3 / 5; 4 / 5; - 4 / 5; 3 / 5], [1]) else (1%Z, [], [], [])
  else (1%Z, [], [], []).
Example ex_dgesvd_ok : dgesvd_spec ex_dgesvd.
Proof.
  intros m n a lda ldu ldvt. unfold ex_dgesvd. destruct (Nat.ltb_spec lda (Nat.max 1 m)); cbn [orb andb]; [splits; try lia; discriminate|].
  destruct (Nat.ltb_spec ldvt (Nat.max 1 n)); cbn [orb andb]; [splits; try lia; discriminate|].
  destruct (Nat.eqb_spec m 2) as [->|]; cbn [orb andb]; [|splits; try lia; discriminate]. destruct (Nat.eqb_spec n 1) as [->|]; cbn [orb andb]; [|splits; try lia; discriminate].
  destruct (list_eq_dec Req_EM_T a ex_a) as [->|]; [|splits; try lia; discriminate]. splits; try (intros; lia). intros _ _ _ _ _. splits; auto.
  unfold is_svd, lv, ex_a. splits.
  - intros [|[|k]] [|[|l]] Hk Hl; try lia; simpl; field.
  - intros [|k] [|l] Hk Hl; try lia; simpl; field.
  - intros [|k] Hk; simpl in *; try lia; lra.
  - intros [|[|i]] [|j] Hi Hj; try lia; simpl; field.
Qed.
(** the pseudo-inverse of the column (3, 4) is the row (3/25, 4/25) *)
Example ex_pinv : exists ai' x, mat_pseudo_inverse ex_dgesvd (mkD 1 2 [0; 0]) (mkD 2 1 ex_a) = Ok ai' /\ is_matrix ai' 1 2 x /\ x 0%nat 0%nat = 3 / 25 /\ x 0%nat 1%nat = 4 / 25.
Proof.
  pose proof (C98_pseudo_inverse ex_dgesvd ex_dgesvd_ok (mkD 1 2 [0; 0]) (mkD 2 1 ex_a) 2 1 (lv 2 ex_a) (fun _ _ => 0)) as H. cbn [d_data] in H.
  assert (E : ex_dgesvd 2 1 ex_a 2 2 1 = (0%Z, [5], [3 / 5; 4 / 5; - 4 / 5; 3 / 5], [1])). { unfold ex_dgesvd. destruct (list_eq_dec Req_EM_T ex_a ex_a); [reflexivity|congruence]. }
  rewrite E in H. destruct H as [_ H].
  - apply is_matrix_dval with (zero := 0); auto.
  - unfold is_matrix; splits; auto. intros [|i] [|[|j]] Hi Hj; try lia; reflexivity.
  - unfold small; lia.
  - unfold small; lia.
  - lia.
  - lia.
  - destruct (H eq_refl) as (ai' & x & k & smax & E1 & M & _ & I1 & _ & _ & P). exists ai', x. destruct I1 as [<-|[]]. split; [exact E1|]. split; [exact M|].
    assert (P1 : penrose 2 1 (lv 2 ex_a) x). { apply P. intros sv [<-|[]]. right. lra. }
    assert (P2 : penrose 2 1 (lv 2 ex_a) (fun i j => nth j [3 / 25; 4 / 25] 0)).
    { unfold penrose, same, mmul, lv, ex_a. splits; intros [|[|i]] [|[|j]] Hi Hj; try lia; simpl; field. }
    pose proof (C98_penrose_unique _ _ _ _ _ P1 P2) as S. split; [rewrite (S 0 0)%nat by lia|rewrite (S 0 1)%nat by lia]; reflexivity.
Qed.

(** the matrix [[0, -9], [16, 0]] has the eigenvalues 12 i and -12 i *)
Definition ex_e : list R := [0; 16; -9; 0].
Definition ex_dgeev (cl cr : bool) (n : nat) (a : list R) (lda ldl ldr : nat) : Z * list R * list R * list R * list R :=
  if (n =? 2)%nat then if list_eq_dec Req_EM_T a ex_e then (0%Z, [0; 0], [12; -12], [4 / 5; 0; 0; - 3 / 5], [3 / 5; 0; 0; - 4 / 5]) else (1%Z, [], [], [], [])
  else (1%Z, [], [], [], []).
Example ex_dgeev_ok : dgeev_spec ex_dgeev.
Proof.
  intros cl cr n a ldl ldr. unfold ex_dgeev. destruct (Nat.eqb_spec n 2) as [->|]; [|discriminate]. destruct (list_eq_dec Req_EM_T a ex_e) as [->|]; [|discriminate].
  intros _ _. splits; auto; intros _ _; (split; [reflexivity|]); (apply compact_pair; [lia|simpl; lra|simpl; lra|reflexivity| |apply compact_end]);
    unfold left_eigen, right_eigen, unit_length, lv, ex_e; (split; [simpl; field|]);
    intros [|[|i]] Hi; try lia; simpl; unfold Cmult, Cplus, Cconj, RtoC; simpl; f_equal; field.
Qed.

Print Assumptions C98_penrose_unique.
Print Assumptions C98_pseudo_inverse.
Print Assumptions C98_pseudo_inverse_sizes.
Print Assumptions C98_pinv_empty_refuted.
Print Assumptions C98_eigen.
Print Assumptions C98_eigen_lr.
Print Assumptions C98_eigen_sizes.
Print Assumptions C98_eigen_lr_sizes.
