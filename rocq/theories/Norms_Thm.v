(** C100: norms, scaled measures and elementwise operations. *)
From Coq Require Import Reals Lra.
From Coquelicot Require Import Complex.
From Verif Require Import Base RBase RSum Dense_Model Dense_Proofs Dense_Thm Blas_Model Blas_Thm Verify_Model Verify_Thm LabVec_Model LabVec_Thm Norms_Model.
Local Open Scope R_scope.

Local Notation C := Complex.C.

(* ------------------------------------------------------------------ *)
(** * Specification *)

(** [x] is the largest of f(0), ..., f(n-1) *)
Definition is_largest (n : nat) (f : nat -> R) (x : R) : Prop := (forall i, (i < n)%nat -> f i <= x) /\ exists i, (i < n)%nat /\ f i = x.

(** the norm of a vector with n > 0 entries of moduli f(0), ..., f(n-1); Norm in base/enums.rs *)
Definition vector_norm (kind : norm_kind) (n : nat) (f : nat -> R) (x : R) : Prop :=
  match kind with
  | Euc | Fro => x = sqrt (sumn n (fun i => f i * f i))
  | Inf | Max => is_largest n f x
  | One => x = sumn n f
  end.
(** the norm of an m by n matrix with entries of moduli f(i, j), m, n > 0 *)
Definition matrix_norm (kind : norm_kind) (m n : nat) (f : nat -> nat -> R) (x : R) : Prop :=
  match kind with
  | Euc | Fro => x = sqrt (sumn m (fun i => sumn n (fun j => f i j * f i j)))
  | Inf => is_largest m (fun i => sumn n (fun j => f i j)) x
  | Max => (forall i j, (i < m)%nat -> (j < n)%nat -> f i j <= x) /\ exists i j, (i < m)%nat /\ (j < n)%nat /\ f i j = x
  | One => is_largest n (fun j => sumn m (fun i => f i j)) x
  end.

Lemma largest_unique n f x y : is_largest n f x -> is_largest n f y -> x = y.
Proof. intros (A & i & Hi & <-) (B & j & Hj & <-). apply Rle_antisym; auto. Qed.

(* ------------------------------------------------------------------ *)
(** * Gauges: what the three ways to combine moduli have in common *)
Definition positive (n : nat) (f : nat -> R) : Prop := forall i, (i < n)%nat -> 0 <= f i.

Record gauge (G : nat -> (nat -> R) -> R) : Prop := {
  g_pos : forall n f, positive n f -> 0 <= G n f;
  g_zero : forall n f, positive n f -> (G n f = 0 <-> forall i, (i < n)%nat -> f i = 0);
  g_scal : forall n f c, positive n f -> 0 <= c -> G n (fun i => c * f i) = c * G n f;
  g_mono : forall n f g, positive n f -> (forall i, (i < n)%nat -> f i <= g i) -> G n f <= G n g;
  g_sub : forall n f g, positive n f -> positive n g -> G n (fun i => f i + g i) <= G n f + G n g }.

Fixpoint maxn (n : nat) (f : nat -> R) : R := match n with O => 0 | S n => Rmax (maxn n f) (f n) end.
Definition l2 (n : nat) (f : nat -> R) : R := sqrt (sumn n (fun i => f i * f i)).

Lemma gauge_ext G n f g : gauge G -> positive n f -> (forall i, (i < n)%nat -> f i = g i) -> G n f = G n g.
Proof.
  intros HG P E. apply Rle_antisym; apply (g_mono _ HG); auto.
  - intros i Hi. rewrite E by auto. lra.
  - intros i Hi. rewrite <- E by auto. apply P; auto.
  - intros i Hi. rewrite E by auto. lra.
Qed.

Lemma maxn_largest n f : (0 < n)%nat -> positive n f -> is_largest n f (maxn n f).
Proof.
  induction n as [|n IH]; intros Hn P; [lia|]. destruct n as [|n].
  - simpl. rewrite Rmax_right by (apply P; lia). split; [intros i Hi; replace i with 0%nat by lia; lra|]. exists 0%nat. split; [lia|auto].
  - destruct IH as (A & k & Hk & E); [lia|intros i Hi; apply P; lia|]. change (maxn (S (S n)) f) with (Rmax (maxn (S n) f) (f (S n))). split.
    + intros i Hi. destruct (Nat.eq_dec i (S n)) as [->|]; [apply Rmax_r|]. eapply Rle_trans; [apply A; lia|apply Rmax_l].
    + unfold Rmax. destruct (Rle_dec (maxn (S n) f) (f (S n))); [exists (S n); split; [lia|auto]|exists k; split; [lia|auto]].
Qed.
Lemma maxn_le n f b : 0 <= b -> (forall i, (i < n)%nat -> f i <= b) -> maxn n f <= b.
Proof. induction n; intros Hb H; simpl; [auto|]. apply Rmax_lub; auto. Qed.
Lemma maxn_ge n f i : (i < n)%nat -> f i <= maxn n f.
Proof. induction n; intros Hi; simpl; [lia|]. destruct (Nat.eq_dec i n) as [->|]; [apply Rmax_r|]. eapply Rle_trans; [apply IHn; lia|apply Rmax_l]. Qed.
Lemma maxn_pos n f : 0 <= maxn n f.
Proof. induction n; simpl; [lra|]. eapply Rle_trans; [exact IHn|apply Rmax_l]. Qed.

Lemma gauge_max : gauge maxn.
Proof.
  constructor.
  - intros n f _. apply maxn_pos.
  - intros n f P. split.
    + intros E i Hi. apply Rle_antisym; [rewrite <- E; now apply maxn_ge|now apply P].
    + intros Z. apply Rle_antisym; [apply maxn_le; [lra|intros i Hi; rewrite Z; auto; lra]|apply maxn_pos].
  - intros n f c P Hc. induction n; simpl; [lra|]. rewrite IHn by (intros i Hi; apply P; lia). apply RmaxRmult; auto.
  - intros n f g _ H. apply maxn_le; [apply maxn_pos|]. intros i Hi. eapply Rle_trans; [apply H; auto|now apply maxn_ge].
  - intros n f g _ _. apply maxn_le; [pose proof (maxn_pos n f); pose proof (maxn_pos n g); lra|]. intros i Hi. apply Rplus_le_compat; now apply maxn_ge.
Qed.
Lemma gauge_sum : gauge sumn.
Proof.
  constructor.
  - intros. now apply sumn_nonneg.
  - intros n f P. split; [now apply sumn_nonneg_zero|apply sumn_zero].
  - intros. apply sumn_scal.
  - intros. now apply sumn_le.
  - intros. rewrite sumn_plus. lra.
Qed.

Lemma squares_pos n f : 0 <= sumn n (fun i => f i * f i).
Proof. apply sumn_nonneg. intros. apply Rle_0_sqr. Qed.
(** Cauchy and Schwarz *)
Lemma cauchy n f g : sumn n (fun i => f i * g i) * sumn n (fun i => f i * g i) <= sumn n (fun i => f i * f i) * sumn n (fun i => g i * g i).
Proof.
  set (a := sumn n (fun i => f i * f i)). set (b := sumn n (fun i => f i * g i)). set (d := sumn n (fun i => g i * g i)).
  assert (Q : forall s t, 0 <= s * s * a + 2 * s * t * b + t * t * d).
  { intros s t. pose proof (squares_pos n (fun i => s * f i + t * g i)) as H.
    rewrite (sumn_ext n _ (fun i => s * s * (f i * f i) + 2 * s * t * (f i * g i) + t * t * (g i * g i))) in H by (intros; ring).
    rewrite !sumn_plus, !sumn_scal in H. exact H. }
  assert (A : 0 <= a) by apply squares_pos. assert (D : 0 <= d) by apply squares_pos.
  destruct (Req_dec a 0) as [Z|N].
  - assert (F : forall i, (i < n)%nat -> f i * f i = 0) by (apply sumn_nonneg_zero; [intros; apply Rle_0_sqr|exact Z]).
    assert (b = 0). { apply sumn_zero. intros i Hi. specialize (F i Hi). assert (f i = 0) by nra. nra. }
    nra.
  - specialize (Q (- b) a). assert (0 <= a * (a * d - b * b)) by nra.
    apply Rmult_le_reg_l with a; [lra|]. nra.
Qed.
Lemma gauge_l2 : gauge l2.
Proof.
  unfold l2. constructor.
  - intros. apply sqrt_pos.
  - intros n f P. split.
    + intros E. apply sqrt_eq_0 in E; [|apply squares_pos]. intros i Hi.
      assert (f i * f i = 0) by (apply (sumn_nonneg_zero n (fun i => f i * f i)); auto; intros; apply Rle_0_sqr). nra.
    + intros Z. rewrite sumn_zero, sqrt_0; auto. intros i Hi. rewrite Z by auto. ring.
  - intros n f c P Hc. rewrite (sumn_ext n _ (fun i => c * c * (f i * f i))) by (intros; ring). rewrite sumn_scal, sqrt_mult, sqrt_square; auto; [apply Rle_0_sqr|apply squares_pos].
  - intros n f g P H. apply sqrt_le_1_alt, sumn_le. intros i Hi. specialize (P i Hi). specialize (H i Hi). nra.
  - intros n f g Pf Pg. set (a := sumn n (fun i => f i * f i)). set (d := sumn n (fun i => g i * g i)).
    assert (A : 0 <= a) by apply squares_pos. assert (D : 0 <= d) by apply squares_pos.
    rewrite (sumn_ext n _ (fun i => f i * f i + 2 * (f i * g i) + g i * g i)) by (intros; ring). rewrite !sumn_plus, sumn_scal. fold a d.
    assert (B := cauchy n f g). fold a d in B. set (b := sumn n (fun i => f i * g i)) in *.
    assert (0 <= b) by (apply sumn_nonneg; intros i Hi; apply Rmult_le_pos; auto).
    assert (b <= sqrt a * sqrt d). { rewrite <- sqrt_mult by auto. apply Rsqr_incr_0_var; [|apply sqrt_pos]. unfold Rsqr. rewrite sqrt_sqrt by nra. exact B. }
    pose proof (sqrt_pos a). pose proof (sqrt_pos d). pose proof (sqrt_sqrt a A). pose proof (sqrt_sqrt d D).
    apply Rsqr_incr_0_var; [|lra]. unfold Rsqr. rewrite sqrt_sqrt by nra. nra.
Qed.

(** the value of a norm *)
Definition vg (kind : norm_kind) : nat -> (nat -> R) -> R := match kind with Euc | Fro => l2 | Inf | Max => maxn | One => sumn end.
Definition outer (kind : norm_kind) : nat -> (nat -> R) -> R := match kind with Euc | Fro => l2 | _ => maxn end.
Definition inner (kind : norm_kind) : nat -> (nat -> R) -> R := match kind with Euc | Fro => l2 | Max => maxn | _ => sumn end.
Definition mg (kind : norm_kind) (m n : nat) (f : nat -> nat -> R) : R :=
  match kind with
  | Inf => outer kind m (fun i => inner kind n (fun j => f i j))
  | _ => outer kind n (fun j => inner kind m (fun i => f i j))
  end.
Lemma vg_gauge k : gauge (vg k).
Proof. destruct k; auto using gauge_max, gauge_sum, gauge_l2. Qed.
Lemma outer_gauge k : gauge (outer k).
Proof. destruct k; auto using gauge_max, gauge_sum, gauge_l2. Qed.
Lemma inner_gauge k : gauge (inner k).
Proof. destruct k; auto using gauge_max, gauge_sum, gauge_l2. Qed.

Lemma vg_spec k n f : (0 < n)%nat -> positive n f -> vector_norm k n f (vg k n f).
Proof. intros Hn P. destruct k; simpl; auto using maxn_largest. Qed.
Lemma l2_l2 m n f : l2 n (fun j => l2 m (fun i => f i j)) = sqrt (sumn n (fun j => sumn m (fun i => f i j * f i j))).
Proof. unfold l2. f_equal. apply sumn_ext. intros j Hj. apply sqrt_sqrt. apply (squares_pos m (fun i => f i j)). Qed.
Lemma mg_spec k m n f : (0 < m)%nat -> (0 < n)%nat -> (forall i j, (i < m)%nat -> (j < n)%nat -> 0 <= f i j) -> matrix_norm k m n f (mg k m n f).
Proof.
  intros Hm Hn P.
  assert (D : mg Fro m n f = sqrt (sumn m (fun i => sumn n (fun j => f i j * f i j)))) by (unfold mg, outer, inner; rewrite l2_l2; f_equal; apply sumn_swap).
  destruct k; simpl; auto.
  - apply maxn_largest; auto. intros i Hi. apply sumn_nonneg. auto.
  - destruct (maxn_largest n (fun j => maxn m (fun i => f i j))) as (A & j & Hj & E); auto; [intros j Hj; apply maxn_pos|]. split.
    + intros i j' Hi Hj'. eapply Rle_trans; [|apply (A j'); auto]. apply (maxn_ge m (fun i => f i j')); auto.
    + destruct (maxn_largest m (fun i => f i j)) as (_ & i & Hi & E'); auto; [intros i Hi; auto|]. exists i, j. splits; auto. unfold mg, outer, inner. now rewrite <- E, <- E'.
  - apply maxn_largest; auto. intros j Hj. apply sumn_nonneg. auto.
Qed.

(** the loops *)
Lemma rsum_ok n f g : (forall i, (i < n)%nat -> f i = Ok (g i)) -> rsum n f = Ok (sumn n g).
Proof.
  intros H. unfold rsum. destruct (for_range_inv (fun i s => s = sumn i g) (fun i s => x <- f i ;; Ok (s + x)) 0 n 0) as (s & E & ->); auto; try lia.
  intros i s Hi ->. rewrite H by lia. eexists. split; [reflexivity|]. simpl. lra.
Qed.
Lemma rmax_ok n f g : (forall i, (i < n)%nat -> f i = Ok (g i)) -> rmax n f = Ok (maxn n g).
Proof.
  intros H. unfold rmax. destruct (for_range_inv (fun i s => s = maxn i g) (fun i s => x <- f i ;; Ok (if Rltb s x then x else s)) 0 n 0) as (s & E & ->); auto; try lia.
  intros i s Hi ->. rewrite H by lia. eexists. split; [reflexivity|]. simpl. destruct (Rltb_spec (maxn i g) (g i)); [rewrite Rmax_right|rewrite Rmax_left]; lra.
Qed.

Section Entries.
Variable T : Type.
Variables zero : T.
Variables add sub mul : T -> T -> T.
Variable mag : T -> R.
Set Default Proof Using "zero".

Lemma mat_norm_value a m n f k : is_matrix a m n f -> small m -> small n -> (0 < m)%nat -> (0 < n)%nat ->
  mat_norm T mag a k = Ok (mg k m n (fun i j => mag (f i j))).
Proof.
  intros HA Sm Sn Hm Hn. pose proof HA as (A1 & A2 & A3 & A4). unfold mat_norm. rewrite A1, A2.
  destruct (Nat.eqb_spec m 0); [lia|]. destruct (Nat.eqb_spec n 0); [lia|]. cbn [orb].
  rewrite (small_i32 T zero m Sm), (small_i32 T zero n Sn). cbn [bind].
  assert (G : forall i j, (i < m)%nat -> (j < n)%nat -> vget (d_data a) (i + j * m) = Ok (f i j)) by (intros; apply (mat_get T zero a m n f); auto).
  assert (F : forall i j, (i < m)%nat -> (j < n)%nat -> (x <- vget (d_data a) (i + j * m) ;; Ok (mag x)) = Ok (mag (f i j))) by (intros; rewrite G; auto).
  destruct k; cbn [norm_code norm_letter Nat.eqb orb]; unfold lange; cbn [String.eqb Ascii.eqb Bool.eqb].
  1,2: rewrite (rsum_ok n _ (fun j => sumn m (fun i => mag (f i j) * mag (f i j)))) by (intros j Hj; apply rsum_ok; intros i Hi; now rewrite F);
       cbn [bind]; unfold mg, outer, inner; now rewrite (l2_l2 m n (fun i j => mag (f i j))).
  - unfold assert_. rewrite Nat.leb_refl. cbn [bind]. apply rmax_ok. intros i Hi. apply rsum_ok. auto.
  - apply rmax_ok. intros j Hj. apply rmax_ok. auto.
  - apply rmax_ok. intros j Hj. apply rsum_ok. auto.
Qed.

(** every matrix has the norm that the enumeration documents; empty matrices have norm zero *)
Theorem C100_mat_norm (Hmag : forall x, 0 <= mag x) a m n f k : is_matrix a m n f -> small m -> small n ->
  (m = 0%nat \/ n = 0%nat -> mat_norm T mag a k = Ok 0) /\
  ((0 < m)%nat -> (0 < n)%nat -> exists x, mat_norm T mag a k = Ok x /\ matrix_norm k m n (fun i j => mag (f i j)) x).
Proof.
  intros HA Sm Sn. split.
  - destruct HA as (A1 & A2 & _). intros H. unfold mat_norm. rewrite A1, A2. destruct H as [-> | ->]; [reflexivity|]. now rewrite Bool.orb_true_r.
  - intros Hm Hn. eexists. split; [apply (mat_norm_value a m n f k); auto|]. apply mg_spec; auto.
Qed.

(** ... and it is a norm: it vanishes at zero only, is homogeneous and satisfies the triangle inequality *)
Theorem C100_mat_norm_laws : (forall x, 0 <= mag x) -> (forall x, mag x = 0 <-> x = zero) -> (forall x y, mag (add x y) <= mag x + mag y) -> (forall x y, mag (mul x y) = mag x * mag y) ->
  forall k m n a b c fa fb alpha x y, is_matrix a m n fa -> is_matrix b m n fb -> small m -> small n ->
  mat_norm T mag a k = Ok x -> mat_norm T mag b k = Ok y ->
  0 <= x /\
  (x = 0 <-> forall i j, (i < m)%nat -> (j < n)%nat -> fa i j = zero) /\
  (is_matrix c m n (fun i j => mul alpha (fa i j)) -> mat_norm T mag c k = Ok (mag alpha * x)) /\
  (is_matrix c m n (fun i j => add (fa i j) (fb i j)) -> exists z, mat_norm T mag c k = Ok z /\ z <= x + y).
Proof.
  intros Hmag Hzero Htri Hmul k m n a b c fa fb alpha x y HA HB Sm Sn EX EY.
  assert (D : (m = 0 \/ n = 0 \/ 0 < m /\ 0 < n)%nat) by lia.
  assert (Em : (m = 0 \/ n = 0)%nat -> forall d fd, is_matrix d m n fd -> mat_norm T mag d k = Ok 0) by (intros; eapply C100_mat_norm; eauto).
  assert (Empty : (m = 0 \/ n = 0)%nat -> 0 <= x /\ (x = 0 <-> (forall i j, (i < m)%nat -> (j < n)%nat -> fa i j = zero)) /\
    (is_matrix c m n (fun i j => mul alpha (fa i j)) -> mat_norm T mag c k = Ok (mag alpha * x)) /\
    (is_matrix c m n (fun i j => add (fa i j) (fb i j)) -> exists z, mat_norm T mag c k = Ok z /\ z <= x + y)).
  { intros D'. rewrite (Em D' _ _ HA) in EX. rewrite (Em D' _ _ HB) in EY. injection EX as <-. injection EY as <-. splits.
    - lra. - split; [intros _ i j Hi Hj; lia|auto]. - intros HC. rewrite (Em D' _ _ HC). f_equal. ring.
    - intros HC. exists 0. split; [apply (Em D' _ _ HC)|lra]. }
  destruct D as [D|[D|[Hm Hn]]]; [apply Empty; auto|apply Empty; auto|clear Em Empty].
  rewrite (mat_norm_value _ _ _ _ _ HA) in EX by auto. rewrite (mat_norm_value _ _ _ _ _ HB) in EY by auto. injection EX as <-. injection EY as <-.
  assert (V : forall fc, is_matrix c m n fc -> mat_norm T mag c k = Ok (mg k m n (fun i j => mag (fc i j)))) by (intros; apply (mat_norm_value c m n); auto).
  pose proof (outer_gauge k) as GO. pose proof (inner_gauge k) as GI.
  assert (L : forall (p q : nat) (F H : nat -> nat -> T),
    let N F := outer k p (fun u => inner k q (fun v => mag (F u v))) in
    0 <= N F /\ (N F = 0 <-> forall u v, (u < p)%nat -> (v < q)%nat -> F u v = zero) /\ N (fun u v => mul alpha (F u v)) = mag alpha * N F /\ N (fun u v => add (F u v) (H u v)) <= N F + N H).
  { clear - GO GI Hmag Hzero Htri Hmul. intros p q F H N.
    assert (PI : forall (F : nat -> nat -> T) u, positive q (fun v => mag (F u v))) by (intros F0 u v _; apply Hmag).
    assert (PO : forall (F : nat -> nat -> T), positive p (fun u => inner k q (fun v => mag (F u v)))) by (intros F0 u Hu; apply (g_pos _ GI), PI).
    unfold N. splits.
    - apply (g_pos _ GO), PO.
    - rewrite (g_zero _ GO) by apply PO. split.
      + intros Z u v Hu Hv. apply Hzero. specialize (Z u Hu). rewrite (g_zero _ GI) in Z by apply PI. auto.
      + intros Z u Hu. rewrite (g_zero _ GI) by apply PI. intros v Hv. apply Hzero. auto.
    - rewrite <- (g_scal _ GO) by auto. apply gauge_ext; [auto|apply (PO (fun u v => mul alpha (F u v)))|]. intros u Hu. rewrite <- (g_scal _ GI) by auto.
      apply gauge_ext; [auto|apply (PI (fun u v => mul alpha (F u v)))|auto].
    - eapply Rle_trans; [|apply (g_sub _ GO); apply PO]. apply (g_mono _ GO); [apply (PO (fun u v => add (F u v) (H u v)))|]. intros u Hu.
      eapply Rle_trans; [|apply (g_sub _ GI); apply PI]. apply (g_mono _ GI); [apply (PI (fun u v => add (F u v) (H u v)))|]. intros v Hv. apply Htri. }
  destruct k.
  3: { destruct (L m n fa fb) as (L1 & L2 & L3 & L4). splits; auto.
    - intros HC. rewrite (V _ HC). f_equal. exact L3.
    - intros HC. eexists. split; [apply (V _ HC)|exact L4]. }
  all: destruct (L n m (fun j i => fa i j) (fun j i => fb i j)) as (L1 & L2 & L3 & L4); splits;
    [exact L1 | split; [intros Z i j Hi Hj; apply (proj1 L2 Z j i); auto|intros Z; apply L2; auto]
    | intros HC; rewrite (V _ HC); f_equal; exact L3
    | intros HC; eexists; split; [apply (V _ HC)|exact L4]].
Qed.

(* ------------------------------------------------------------------ *)
(** * Elementwise operations *)
Lemma combine_nth_map (g : T -> T -> T) (u v : list T) i : length u = length v -> (i < length v)%nat ->
  nth i (map (fun p => g (fst p) (snd p)) (combine u v)) zero = g (nth i u zero) (nth i v zero).
Proof.
  intros L Hi. rewrite (nth_indep _ zero (g (fst (zero, zero)) (snd (zero, zero)))) by (rewrite map_length, combine_length; lia).
  rewrite (map_nth (fun p => g (fst p) (snd p))), combine_nth by auto. reflexivity.
Qed.
Lemma scal_nth alpha (v : list T) i : (i < length v)%nat -> nth i (blas_scal T mul alpha v) zero = mul alpha (nth i v zero).
Proof. intros Hi. unfold blas_scal. rewrite (nth_indep _ zero (mul alpha zero)) by (rewrite map_length; lia). apply map_nth. Qed.

(** vectors: copies, multiples, sums; wrong sizes are errors; BLAS is called with the length as an i32 *)
Theorem C100_vec_ops w u v n fw fu fv alpha beta : is_vector w n fw -> is_vector u n fu -> is_vector v n fv ->
  (exists w', vec_add T add mul w alpha u beta v = Ok w' /\ is_vector w' n (fun i => add (mul alpha (fu i)) (mul beta (fv i)))) /\
  (exists w', vec_plus T add w u v = Ok w' /\ is_vector w' n (fun i => add (fu i) (fv i))) /\
  (exists w', vec_minus T sub w u v = Ok w' /\ is_vector w' n (fun i => sub (fu i) (fv i))) /\
  (small n -> vec_copy T w u = Ok u /\
    (exists w', vec_scale T mul w alpha = Ok w' /\ is_vector w' n (fun i => mul alpha (fw i))) /\
    (exists w', vec_update T add mul w alpha u = Ok w' /\ is_vector w' n (fun i => add (mul alpha (fu i)) (fw i)))).
Proof.
  intros HW HU HV. pose proof (proj1 HW) as LW. pose proof (proj1 HU) as LU. pose proof (proj1 HV) as LV.
  assert (N : forall x f i, is_vector x n f -> (i < n)%nat -> nth i x zero = f i) by (intros; apply (vec_nth T zero x n f); auto).
  splits.
  - destruct (C17_array_plus_opx T zero add mul w u v alpha beta) as (r & E & L & H); try lia. exists r. split; [exact E|]. apply (vec_intro T zero); [lia|].
    intros i Hi. rewrite H by lia. now rewrite (N u fu), (N v fv).
  - destruct (proj1 (C17_array_op T zero add w u v)) as (r & E & L & H); try lia. exists r. split; [exact E|]. apply (vec_intro T zero); [lia|].
    intros i Hi. rewrite H by lia. now rewrite (N u fu), (N v fv).
  - destruct (proj1 (C17_array_op T zero sub w u v)) as (r & E & L & H); try lia. exists r. split; [exact E|]. apply (vec_intro T zero); [lia|].
    intros i Hi. rewrite H by lia. now rewrite (N u fu), (N v fv).
  - intros Sn. unfold vec_copy, vec_scale, vec_update. rewrite LW, LU, Nat.eqb_refl. cbn [negb]. rewrite (small_i32 T zero n Sn). cbn [bind].
    rewrite (firstn_all2 u), (firstn_all2 w) by lia. splits; auto.
    + eexists. split; [reflexivity|]. apply (vec_intro T zero); [unfold blas_scal; now rewrite map_length|]. intros i Hi. rewrite scal_nth by lia. now rewrite (N w fw).
    + eexists. split; [reflexivity|]. apply (vec_intro T zero); [unfold blas_axpy; rewrite map_length, combine_length; lia|]. intros i Hi.
      unfold blas_axpy. rewrite (combine_nth_map (fun a b => add (mul alpha a) b)) by lia. now rewrite (N u fu), (N w fw).
Qed.
Theorem C100_vec_sizes (w u v : list T) alpha beta :
  (length u <> length w -> (exists e, vec_copy T w u = Err e) /\ (exists e, vec_update T add mul w alpha u = Err e)) /\
  (length u <> length w \/ length v <> length w ->
     (exists e, vec_add T add mul w alpha u beta v = Err e) /\ (exists e, vec_plus T add w u v = Err e) /\ (exists e, vec_minus T sub w u v = Err e)).
Proof.
  split; intros H.
  - unfold vec_copy, vec_update. rewrite (proj2 (Nat.eqb_neq _ _) H). cbn [negb]. eauto.
  - splits; try (apply (proj2 (C17_array_op T zero _ w u v)); auto).
    unfold vec_add, array_plus_opx. destruct (Nat.eqb_spec (length u) (length w)); cbn [negb orb]; [|eauto]. destruct (Nat.eqb_spec (length v) (length w)); cbn [negb orb]; [lia|eauto].
Qed.

(** matrices: the same, entry by entry *)
Theorem C100_mat_ops c a b m n fc fa fb alpha beta : is_matrix c m n fc -> is_matrix a m n fa -> is_matrix b m n fb ->
  (exists c', mat_add T add mul c alpha a beta b = Ok c' /\ is_matrix c' m n (fun i j => add (mul alpha (fa i j)) (mul beta (fb i j)))) /\
  (exists c', mat_plus T add c a b = Ok c' /\ is_matrix c' m n (fun i j => add (fa i j) (fb i j))) /\
  (exists c', mat_minus T sub c a b = Ok c' /\ is_matrix c' m n (fun i j => sub (fa i j) (fb i j))) /\
  (small (m * n) ->
    (exists c', mat_copy T c a = Ok c' /\ is_matrix c' m n fa) /\
    (exists c', mat_scale T mul c alpha = Ok c' /\ is_matrix c' m n (fun i j => mul alpha (fc i j))) /\
    (exists c', mat_update T add mul c alpha a = Ok c' /\ is_matrix c' m n (fun i j => add (mul alpha (fa i j)) (fc i j)))).
Proof.
  intros HC HA HB. pose proof HC as (C1 & C2 & C3 & _). pose proof HA as (A1 & A2 & A3 & _). pose proof HB as (B1 & B2 & B3 & _).
  assert (N : forall x f i j, is_matrix x m n f -> (i < m)%nat -> (j < n)%nat -> nth (i + j * m) (d_data x) zero = f i j) by (intros; apply (mat_nth T zero x m n f); auto).
  assert (I : forall i j, (i < m)%nat -> (j < n)%nat -> (i + j * m < m * n)%nat) by (intros; apply idx_lt; auto).
  unfold mat_add, mat_plus, mat_minus, mat_op, mat_copy, mat_scale, mat_update. rewrite C1, C2, A1, A2, B1, B2, !Nat.eqb_refl. cbn [negb orb].
  splits.
  - destruct (C17_array_plus_opx T zero add mul (d_data c) (d_data a) (d_data b) alpha beta) as (r & E & L & H); try lia. rewrite E. cbn [bind]. eexists. split; [reflexivity|].
    apply (is_matrix_dval T zero); auto; [simpl; lia|]. intros i j Hi Hj. simpl. rewrite H by (rewrite C3; auto). now rewrite (N a fa), (N b fb).
  - destruct (proj1 (C17_array_op T zero add (d_data c) (d_data a) (d_data b))) as (r & E & L & H); try lia. rewrite E. cbn [bind]. eexists. split; [reflexivity|].
    apply (is_matrix_dval T zero); auto; [simpl; lia|]. intros i j Hi Hj. simpl. rewrite H by (rewrite C3; auto). now rewrite (N a fa), (N b fb).
  - destruct (proj1 (C17_array_op T zero sub (d_data c) (d_data a) (d_data b))) as (r & E & L & H); try lia. rewrite E. cbn [bind]. eexists. split; [reflexivity|].
    apply (is_matrix_dval T zero); auto; [simpl; lia|]. intros i j Hi Hj. simpl. rewrite H by (rewrite C3; auto). now rewrite (N a fa), (N b fb).
  - intros Sn. rewrite (small_i32 T zero _ Sn). cbn [bind]. rewrite (firstn_all2 (d_data a)), (firstn_all2 (d_data c)), (skipn_all2 (d_data c)), !app_nil_r by lia. splits.
    + eexists. split; [reflexivity|]. apply (is_matrix_dval T zero); auto. intros i j Hi Hj. simpl. now apply N.
    + eexists. split; [reflexivity|]. apply (is_matrix_dval T zero); auto; [simpl; unfold blas_scal; now rewrite map_length|]. intros i j Hi Hj. simpl.
      rewrite scal_nth by (rewrite C3; auto). now rewrite (N c fc).
    + eexists. split; [reflexivity|]. apply (is_matrix_dval T zero); auto; [simpl; unfold blas_axpy; rewrite map_length, combine_length; lia|]. intros i j Hi Hj. simpl.
      unfold blas_axpy. rewrite (combine_nth_map (fun a b => add (mul alpha a) b)) by (try lia; rewrite C3; auto). now rewrite (N a fa), (N c fc).
Qed.
Theorem C100_mat_sizes (c a b : dmat T) alpha beta :
  (d_nrow a <> d_nrow c \/ d_ncol a <> d_ncol c ->
     (exists e, mat_copy T c a = Err e) /\ (exists e, mat_update T add mul c alpha a = Err e) /\ (exists e, mat_max_abs_diff T sub mag c a = Err e)) /\
  (d_nrow a <> d_nrow c \/ d_ncol a <> d_ncol c \/ d_nrow b <> d_nrow c \/ d_ncol b <> d_ncol c ->
     (exists e, mat_add T add mul c alpha a beta b = Err e) /\ (exists e, mat_plus T add c a b = Err e) /\ (exists e, mat_minus T sub c a b = Err e)).
Proof.
  split; intros H.
  - unfold mat_copy, mat_update, mat_max_abs_diff.
    destruct (Nat.eqb_spec (d_nrow a) (d_nrow c)); cbn [negb orb]; [|splits; eauto]. destruct (Nat.eqb_spec (d_ncol a) (d_ncol c)); cbn [negb orb]; [lia|splits; eauto].
  - unfold mat_add, mat_plus, mat_minus, mat_op.
    destruct (Nat.eqb_spec (d_nrow a) (d_nrow c)); cbn [negb orb]; [|splits; eauto]. destruct (Nat.eqb_spec (d_ncol a) (d_ncol c)); cbn [negb orb]; [|splits; eauto].
    destruct (Nat.eqb_spec (d_nrow b) (d_nrow c)); cbn [negb orb]; [|splits; eauto]. destruct (Nat.eqb_spec (d_ncol b) (d_ncol c)); cbn [negb orb]; [lia|splits; eauto].
Qed.

(** mat_max_abs_diff finds the largest difference and, row by row, its first position *)
Theorem C100_mat_max_abs_diff (Hmag : forall x, 0 <= mag x) a b m n fa fb : is_matrix a m n fa -> is_matrix b m n fb ->
  exists i j d, mat_max_abs_diff T sub mag a b = Ok (i, j, d) /\
    (forall k l, (k < m)%nat -> (l < n)%nat -> mag (sub (fa k l) (fb k l)) <= d) /\
    (0 < d -> (i < m)%nat /\ (j < n)%nat /\ d = mag (sub (fa i j) (fb i j)) /\
       forall k l, (l < n)%nat -> (k < i \/ k = i /\ l < j)%nat -> mag (sub (fa k l) (fb k l)) < d) /\
    (~ 0 < d -> d = 0 /\ i = 0%nat /\ j = 0%nat).
Proof.
  intros HA HB. pose proof HA as (A1 & A2 & A3 & A4). pose proof HB as (B1 & B2 & B3 & B4). unfold mat_max_abs_diff. rewrite A1, A2, B1, B2, !Nat.eqb_refl. cbn [negb orb].
  set (D k l := mag (sub (fa k l) (fb k l))).
  set (Inv (seen : nat -> nat -> Prop) (s : nat * nat * R) := let '(i, j, d) := s in
    (forall k l, (k < m)%nat -> (l < n)%nat -> seen k l -> D k l <= d) /\
    (0 < d -> seen i j /\ (i < m)%nat /\ (j < n)%nat /\ d = D i j /\ forall k l, (l < n)%nat -> (k < i \/ k = i /\ l < j)%nat -> D k l < d) /\
    (~ 0 < d -> d = 0 /\ i = 0%nat /\ j = 0%nat)).
  assert (W : forall (p q : nat -> nat -> Prop) s, (forall k l, (k < m)%nat -> (l < n)%nat -> (p k l <-> q k l)) -> Inv p s -> Inv q s).
  { intros p q [[i j] d] E (I1 & I2 & I3). unfold Inv. splits; auto.
    - intros k l Hk Hl Q. apply I1; auto. now apply E.
    - intros Hd. destruct (I2 Hd) as (S1 & S2 & S3 & S4 & S5). splits; auto. now apply E. }
  edestruct (for_range_inv (fun i s => Inv (fun k l => (k < i)%nat) s)) as (s & E & I).
  4: { destruct s as [[i j] d]. exists i, j, d. split; [exact E|]. destruct I as (I1 & I2 & I3). splits; [intros k l Hk Hl; apply I1; auto|intros Hd; destruct (I2 Hd) as (_ & S2 & S3 & S4 & S5); auto|auto]. }
  - lia.
  - unfold Inv. splits; [intros; lia|intros; lra|auto].
  - intros i s Hi I.
    edestruct (for_range_inv (fun j s => Inv (fun k l => (k < i \/ k = i /\ l < j)%nat) s)) as (s' & E' & I').
    4: { exists s'. split; [exact E'|]. revert I'. apply W. intros k l Hk Hl. lia. }
    + lia.
    + revert I. apply W. intros k l Hk Hl. lia.
    + intros j [[i0 j0] d] Hj (I1 & I2 & I3). cbn beta iota. rewrite A4, B4 by lia. cbn [bind]. fold (D i j).
      destruct (Rltb_spec d (D i j)) as [L|L]; eexists; (split; [reflexivity|]); cbn beta iota.
      * assert (Dp : 0 <= d) by (destruct (Rlt_dec 0 d) as [P|P]; [lra|destruct (I3 P); lra]). unfold Inv. splits.
        -- intros k l Hk Hl [Q|[Q Q']]; [specialize (I1 k l Hk Hl ltac:(lia)); lra|]. subst k. destruct (Nat.eq_dec l j) as [->|]; [lra|]. specialize (I1 i l Hk Hl ltac:(lia)); lra.
        -- intros _. splits; auto; try lia. intros k l Hl Q. apply Rle_lt_trans with d; [|auto]. apply I1; auto; lia.
        -- intros Q. lra.
      * unfold Inv. splits; auto.
        -- intros k l Hk Hl [Q|[Q Q']]; [apply I1; auto; lia|]. subst k. destruct (Nat.eq_dec l j) as [->|]; [lra|]. apply I1; auto; lia.
        -- intros Hd. destruct (I2 Hd) as (S1 & S2 & S3 & S4 & S5). splits; auto. lia.
Qed.
End Entries.
Unset Default Proof Using.

(* ------------------------------------------------------------------ *)
(** * Norms of vectors *)
Lemma fold_sum {A} (g : A -> R) (z : A) v : forall s, fold_left (fun s x => s + g x) v s = s + sumn (length v) (fun i => g (nth i v z)).
Proof.
  induction v as [|x v IH]; intros s; simpl; [lra|]. rewrite IH. change (g (nth (length v) (x :: v) z)) with ((fun i => g (nth i (x :: v) z)) (length v)).
  pose proof (sumn_S_l (length v) (fun i => g (nth i (x :: v) z))) as E. simpl in E. simpl. lra.
Qed.
Lemma idamax_maxn v : v <> [] -> (x <- vget v (idamax v) ;; Ok (Rabs x)) = Ok (maxn (length v) (fun i => Rabs (nth i v 0))).
Proof.
  intros Hv. destruct (idamax_spec v Hv) as (A & B). rewrite (vget_ok _ _ 0) by exact A. cbn [bind]. f_equal.
  apply largest_unique with (n := length v) (f := fun i => Rabs (nth i v 0)).
  - split; [|exists (idamax v); auto]. intros i Hi. apply B. apply in_map. now apply nth_In.
  - apply maxn_largest; [lia|]. intros i Hi. apply Rabs_pos.
Qed.
Lemma vec_norm_value v k n f : is_vector v n f -> small n -> vec_norm v k = Ok (vg k n (fun i => Rabs (f i))).
Proof.
  intros HV Sn. pose proof (proj1 HV) as L. unfold vec_norm. rewrite L, (small_i32 R 0 n Sn). cbn [bind].
  destruct (Nat.eqb_spec n 0) as [->|Hn]; [destruct k; simpl; unfold l2; simpl; rewrite ?sqrt_0; reflexivity|].
  assert (E : forall G : nat -> (nat -> R) -> R, gauge G -> G n (fun i => Rabs (nth i v 0)) = G n (fun i => Rabs (f i))).
  { intros G HG. apply gauge_ext; auto; [intros i Hi; apply Rabs_pos|]. intros i Hi. now rewrite (vec_nth R 0 v n f) by auto. }
  assert (D : Ok (blas_nrm2 v) = Ok (l2 n (fun i => Rabs (f i)))).
  { f_equal. rewrite <- (E _ gauge_l2). unfold blas_nrm2, l2. f_equal. rewrite (fold_sum (fun x => x * x) 0), L, Rplus_0_l. apply sumn_ext. intros i Hi.
    rewrite <- Rabs_mult. symmetry. apply Rabs_pos_eq, Rle_0_sqr. }
  destruct k; simpl; auto.
  1,2: rewrite idamax_maxn by (destruct v; simpl in *; congruence); rewrite L; f_equal; apply E, gauge_max.
  f_equal. unfold blas_asum. rewrite (fold_sum Rabs 0), L, Rplus_0_l. apply E, gauge_sum.
Qed.
(** vec_norm computes the norm that the enumeration documents; an empty vector has norm zero *)
Theorem C100_vec_norm v k n f : is_vector v n f -> small n ->
  (n = 0%nat -> vec_norm v k = Ok 0) /\ ((0 < n)%nat -> exists x, vec_norm v k = Ok x /\ vector_norm k n (fun i => Rabs (f i)) x).
Proof.
  intros HV Sn. split.
  - intros ->. rewrite (vec_norm_value _ _ _ _ HV Sn). destruct k; simpl; unfold l2; simpl; rewrite ?sqrt_0; reflexivity.
  - intros Hn. eexists. split; [apply (vec_norm_value v k n f); auto|]. apply vg_spec; auto. intros i Hi. apply Rabs_pos.
Qed.
(** vec_norm_diff vanishes for equal vectors only, does not depend on the order of its arguments and satisfies the triangle inequality *)
Theorem C100_vec_norm_diff u v w n fu fv fw k : is_vector u n fu -> is_vector v n fv -> is_vector w n fw -> small n ->
  exists x, vec_norm_diff u v k = Ok x /\ ((0 < n)%nat -> vector_norm k n (fun i => Rabs (fu i - fv i)) x) /\
    0 <= x /\ (x = 0 <-> forall i, (i < n)%nat -> fu i = fv i) /\
    vec_norm_diff v u k = Ok x /\ (forall y z, vec_norm_diff v w k = Ok y -> vec_norm_diff u w k = Ok z -> z <= x + y).
Proof.
  intros HU HV HW Sn.
  assert (V : forall a b fa fb, is_vector a n fa -> is_vector b n fb -> vec_norm_diff a b k = Ok (vg k n (fun i => Rabs (fa i - fb i)))).
  { intros a b fa fb HA HB. pose proof (proj1 HA) as LA. pose proof (proj1 HB) as LB. unfold vec_norm_diff. rewrite LB, LA, Nat.eqb_refl. cbn [assert_ bind].
    destruct (Nat.eqb_spec n 0) as [->|Hn]; [destruct k; simpl; unfold l2; simpl; rewrite ?sqrt_0; reflexivity|].
    assert (HR : is_vector (repeat 0 n) n (fun _ => 0)) by (apply (vec_intro R 0); [apply repeat_length|intros; apply nth_repeat_d]).
    destruct (C100_vec_ops R 0 Rplus Rminus Rmult (repeat 0 n) a b n _ fa fb 0 0 HR HA HB) as (_ & _ & (d & E & HD) & _). rewrite E. cbn [unwrap bind]. now apply vec_norm_value. }
  pose proof (vg_gauge k) as G.
  assert (P : forall f g : nat -> R, positive n (fun i => Rabs (f i - g i))) by (intros f g i _; apply Rabs_pos).
  eexists. split; [apply (V u v fu fv); auto|]. splits.
  - intros Hn. apply vg_spec; auto.
  - apply (g_pos _ G). auto.
  - rewrite (g_zero _ G) by auto. split; intros Z i Hi.
    + specialize (Z i Hi). simpl in Z. apply Rminus_diag_uniq. destruct (Req_dec (fu i - fv i) 0); auto. exfalso. now apply (Rabs_no_R0 (fu i - fv i)).
    + rewrite Z by auto. rewrite Rminus_diag_eq by reflexivity. apply Rabs_R0.
  - rewrite (V v u fv fu) by auto. f_equal. apply gauge_ext; auto. intros i Hi. apply Rabs_minus_sym.
  - intros y z Y Z. rewrite (V v w fv fw) in Y by auto. rewrite (V u w fu fw) in Z by auto. injection Y as <-. injection Z as <-.
    eapply Rle_trans; [|apply (g_sub _ G); auto]. apply (g_mono _ G); auto. intros i Hi. replace (fu i - fw i) with ((fu i - fv i) + (fv i - fw i)) by ring. apply Rabs_triang.
Qed.
Lemma slice_nth {A} (v : list A) s k i : (i < k)%nat -> nth_error (firstn k (skipn s v)) i = nth_error v (s + i).
Proof.
  revert v k i. induction s as [|s IH]; intros v k i Hi; simpl.
  - revert v i Hi. induction k as [|k IH]; intros v i Hi; [lia|]. destruct v as [|x v]; destruct i; simpl; auto. apply IH. lia.
  - destruct v as [|x v]; simpl; [rewrite firstn_nil; destruct i; reflexivity|]. apply IH, Hi.
Qed.
(** vec_norm_chunk is the norm of the slice; a bad range is a panic, but not for an empty vector *)
Theorem C100_vec_norm_chunk v k n f start stop : is_vector v n f -> small n ->
  ((start < stop <= n)%nat -> exists x, vec_norm_chunk v k start stop = Ok x /\ vector_norm k (stop - start) (fun i => Rabs (f (start + i)%nat)) x) /\
  ((0 < n)%nat -> ~ (start < stop <= n)%nat -> vec_norm_chunk v k start stop = Panic) /\
  (n = 0%nat -> vec_norm_chunk v k start stop = Ok 0).
Proof.
  intros HV Sn. pose proof (proj1 HV) as L. unfold vec_norm_chunk. rewrite L. splits.
  - intros H. destruct (Nat.eqb_spec n 0); [lia|]. rewrite (proj2 (Nat.ltb_lt _ _)), (proj2 (Nat.leb_le _ _)) by lia. cbn [assert_ bind].
    set (s := firstn (stop - start) (skipn start v)).
    assert (LS : length s = (stop - start)%nat) by (unfold s; rewrite firstn_length, skipn_length; lia).
    assert (HS : is_vector s (stop - start) (fun i => f (start + i)%nat)).
    { split; auto. intros i Hi. unfold s. rewrite slice_nth by lia. apply HV. lia. }
    assert (SS : small (stop - start)) by (unfold small in *; lia).
    pose proof (vec_norm_value s k _ _ HS SS) as E. unfold vec_norm in E. rewrite LS, (small_i32 R 0 _ SS) in E |- *. cbn [bind] in E |- *.
    destruct (Nat.eqb_spec (stop - start) 0); [lia|]. rewrite E. eexists. split; [reflexivity|]. apply vg_spec; [lia|]. intros i Hi. apply Rabs_pos.
  - intros Hn H. destruct (Nat.eqb_spec n 0); [lia|]. destruct (Nat.ltb_spec start stop); cbn [assert_ bind]; [|reflexivity]. destruct (Nat.leb_spec stop n); [lia|reflexivity].
  - intros ->. reflexivity.
Qed.
(** complex_vec_norm *)
Theorem C100_complex_vec_norm v k n f : is_vector v n f -> small n ->
  (n = 0%nat -> complex_vec_norm v k = Ok 0) /\ ((0 < n)%nat -> exists x, complex_vec_norm v k = Ok x /\ vector_norm k n (fun i => Cmod (f i)) x).
Proof.
  intros HV Sn. pose proof (proj1 HV) as L. unfold complex_vec_norm. rewrite L, (small_i32 R 0 n Sn). cbn [bind]. split; [intros ->; reflexivity|]. intros Hn.
  destruct (Nat.eqb_spec n 0) as [->|_]; [lia|].
  assert (N : forall i, (i < n)%nat -> nth i v (RtoC 0) = f i) by (intros; apply (vec_nth C (RtoC 0) v n f); auto).
  assert (D : exists x, Ok (blas_nrm2 (map Cmod v)) = Ok x /\ vector_norm Euc n (fun i => Cmod (f i)) x).
  { eexists. split; [reflexivity|]. simpl. unfold blas_nrm2. f_equal. rewrite (fold_sum (fun x => x * x) (Cmod (RtoC 0))), map_length, L, Rplus_0_l. apply sumn_ext. intros i Hi.
    rewrite (map_nth Cmod), N by auto. reflexivity. }
  assert (M : exists x, for_range 0 n (fun i max => z <- vget v i ;; Ok (if Rltb max (Cmod z) then Cmod z else max)) 0 = Ok x /\ is_largest n (fun i => Cmod (f i)) x).
  { exists (maxn n (fun i => Cmod (f i))). split; [|apply maxn_largest; auto; intros i Hi; apply Cmod_ge_0].
    destruct (for_range_inv (fun i s => s = maxn i (fun i => Cmod (f i))) (fun i max => z <- vget v i ;; Ok (if Rltb max (Cmod z) then Cmod z else max)) 0 n 0) as (s & E & ->); auto; try lia.
    intros i s Hi ->. rewrite (vec_get C (RtoC 0) v n f) by (auto; lia). cbn [bind]. eexists. split; [reflexivity|]. simpl.
    destruct (Rltb_spec (maxn i (fun i => Cmod (f i))) (Cmod (f i))); [rewrite Rmax_right|rewrite Rmax_left]; lra. }
  destruct k; auto. eexists. split; [reflexivity|]. simpl. rewrite (fold_sum Cmod (RtoC 0)), L, Rplus_0_l. apply sumn_ext. intros i Hi. now rewrite N.
Qed.

(* ------------------------------------------------------------------ *)
(** * Scaled measures *)
Lemma Rdiv_le_0_compat x y : 0 <= x -> 0 < y -> 0 <= x / y.
Proof. intros Hx Hy. apply Rmult_le_pos; [auto|]. apply Rlt_le, Rinv_0_lt_compat, Hy. Qed.
Lemma f64_min_neg : F64_MIN < 0.
Proof. unfold F64_MIN. assert (2 ^ 971 < 2 ^ 1024) by (apply Rlt_pow; [lra|lia]). lra. Qed.
Lemma max_loop n (body : nat -> R -> res R) g : (0 < n)%nat -> (forall i s, (i < n)%nat -> body i s = Ok (Rmax s (g i))) -> positive n g ->
  exists x, for_range 0 n body F64_MIN = Ok x /\ is_largest n g x.
Proof.
  intros Hn HB P. destruct (for_range_inv (fun i s => match i with O => s = F64_MIN | _ => is_largest i g s end) body 0 n F64_MIN) as (x & E & H); auto; try lia.
  - intros i s Hi I. rewrite HB by lia. eexists. split; [reflexivity|]. destruct i as [|i].
    + subst s. pose proof f64_min_neg. specialize (P 0%nat Hn). rewrite Rmax_right by lra. split; [intros j Hj; replace j with 0%nat by lia; lra|exists 0%nat; split; [lia|auto]].
    + destruct I as (A & j & Hj & Ej). split.
      * intros l Hl. destruct (Nat.eq_dec l (S i)) as [->|]; [apply Rmax_r|]. eapply Rle_trans; [apply A; lia|apply Rmax_l].
      * unfold Rmax. destruct (Rle_dec s (g (S i))); [exists (S i); split; [lia|auto]|exists j; split; [lia|auto]].
  - destruct n; [lia|]. eauto.
Qed.
Theorem C100_max_scaled v v0 n fv f0 one : is_vector v n fv -> is_vector v0 n f0 -> (0 < n)%nat -> (forall i, (i < n)%nat -> 0 < one + Rabs (f0 i)) ->
  exists x, vec_max_scaled v v0 one = Ok x /\ is_largest n (fun i => Rabs (fv i) / (one + Rabs (f0 i))) x.
Proof.
  intros HV H0 Hn P. unfold vec_max_scaled. rewrite (proj1 HV), (proj1 H0), Nat.eqb_refl. cbn [assert_ bind]. destruct (Nat.eqb_spec n 0); [lia|]. apply max_loop; auto.
  - intros i s Hi. now rewrite (vec_get R 0 v n fv), (vec_get R 0 v0 n f0) by auto.
  - intros i Hi. apply Rdiv_le_0_compat; [apply Rabs_pos|auto].
Qed.
Theorem C100_max_scaled_diff u v s n fu fv fs : is_vector u n fu -> is_vector v n fv -> is_vector s n fs -> (0 < n)%nat ->
  exists x, vec_max_scaled_diff u v s = Ok x /\ is_largest n (fun i => Rabs (fu i - fv i) / (1 + Rabs (fs i))) x.
Proof.
  intros HU HV HS Hn. unfold vec_max_scaled_diff. rewrite (proj1 HV), (proj1 HU), (proj1 HS), Nat.eqb_refl. cbn [assert_ bind]. destruct (Nat.eqb_spec n 0); [lia|]. apply max_loop; auto.
  - intros i r Hi. now rewrite (vec_get R 0 u n fu), (vec_get R 0 v n fv), (vec_get R 0 s n fs) by auto.
  - intros i Hi. apply Rdiv_le_0_compat; [apply Rabs_pos|]. pose proof (Rabs_pos (fs i)). lra.
Qed.
Lemma rms_loop n body g : (forall i s, (i < n)%nat -> body i s = Ok (s + g i)) -> for_range 0 n body 0 = Ok (sumn n g).
Proof.
  intros H. destruct (for_range_inv (fun i s => s = sumn i g) body 0 n 0) as (s & E & ->); auto; try lia. intros i s Hi ->. rewrite H by lia. eexists. split; reflexivity.
Qed.
Lemma rms_one n g : (0 < n)%nat -> positive n g -> (forall i, (i < n)%nat -> g i <= 1) -> sqrt (sumn n g / INR n) <= 1.
Proof.
  intros Hn P H. rewrite <- sqrt_1. apply sqrt_le_1_alt. assert (0 < INR n) by (now apply lt_0_INR). apply Rmult_le_reg_r with (INR n); auto. unfold Rdiv. rewrite Rmult_assoc, Rinv_l, Rmult_1_r, Rmult_1_l by lra.
  rewrite <- (Rmult_1_r (INR n)), <- sumn_const. apply sumn_le. auto.
Qed.
Lemma ratio_one x d : 0 < d -> Rabs x <= d -> x * x / (d * d) <= 1.
Proof. intros Hd Hx. apply Rmult_le_reg_r with (d * d); [nra|]. unfold Rdiv. rewrite Rmult_assoc, Rinv_l, Rmult_1_r, Rmult_1_l by nra. unfold Rabs in Hx. destruct (Rcase_abs x); nra. Qed.
Lemma ratio_pos x d : 0 < d -> 0 <= x * x / (d * d).
Proof. intros Hd. apply Rdiv_le_0_compat; nra. Qed.
(** the scaled root-mean-square is the documented number; it is at most one when every component is within its tolerance *)
Theorem C100_rms_scaled v v0 n fv f0 abs_tol rel_tol : is_vector v n fv -> is_vector v0 n f0 -> (0 < n)%nat -> 0 < abs_tol -> 0 <= rel_tol ->
  let den i := abs_tol + rel_tol * Rabs (f0 i) in
  exists x, vec_rms_scaled v v0 abs_tol rel_tol = Ok x /\ x = sqrt (sumn n (fun i => (fv i / den i) * (fv i / den i)) / INR n) /\
    ((forall i, (i < n)%nat -> Rabs (fv i) <= den i) -> x <= 1).
Proof.
  intros HV H0 Hn Ha Hr den. assert (D : forall i, 0 < den i) by (intros i; unfold den; pose proof (Rabs_pos (f0 i)); nra).
  unfold vec_rms_scaled. rewrite (proj1 HV), (proj1 H0), Nat.eqb_refl. cbn [assert_ bind]. destruct (Nat.eqb_spec n 0); [lia|].
  rewrite (rms_loop n _ (fun i => fv i * fv i / (den i * den i))) by (intros i s Hi; now rewrite (vec_get R 0 v n fv), (vec_get R 0 v0 n f0) by auto). cbn [bind].
  eexists. split; [reflexivity|]. split.
  - f_equal. f_equal. apply sumn_ext. intros i Hi. specialize (D i). field. lra.
  - intros H. apply rms_one; auto; [intros i Hi; now apply ratio_pos|]. intros i Hi. apply ratio_one; auto.
Qed.
Theorem C100_rms_scaled_diff u v n fu fv abs_tol rel_tol : is_vector u n fu -> is_vector v n fv -> (0 < n)%nat -> 0 < abs_tol -> 0 <= rel_tol ->
  let sc i := abs_tol + rel_tol * Rmax (Rabs (fu i)) (Rabs (fv i)) in
  exists x, vec_rms_scaled_diff u v abs_tol rel_tol = Ok x /\ x = sqrt (sumn n (fun i => ((fu i - fv i) / sc i) * ((fu i - fv i) / sc i)) / INR n) /\
    ((forall i, (i < n)%nat -> Rabs (fu i - fv i) <= sc i) -> x <= 1).
Proof.
  intros HU HV Hn Ha Hr sc. assert (D : forall i, 0 < sc i) by (intros i; unfold sc; pose proof (Rabs_pos (fu i)); pose proof (Rmax_l (Rabs (fu i)) (Rabs (fv i))); nra).
  unfold vec_rms_scaled_diff. rewrite (proj1 HV), (proj1 HU), Nat.eqb_refl. cbn [assert_ bind]. destruct (Nat.eqb_spec n 0); [lia|].
  rewrite (rms_loop n _ (fun i => (fu i - fv i) * (fu i - fv i) / (sc i * sc i))) by (intros i s Hi; now rewrite (vec_get R 0 u n fu), (vec_get R 0 v n fv) by auto). cbn [bind].
  eexists. split; [reflexivity|]. split.
  - f_equal. f_equal. apply sumn_ext. intros i Hi. specialize (D i). field. lra.
  - intros H. apply rms_one; auto; [intros i Hi; now apply ratio_pos|]. intros i Hi. apply ratio_one; auto.
Qed.
(** the measures of empty vectors are zero; different lengths are a panic *)
Theorem C100_measure_sizes u v s one abs_tol rel_tol k :
  (vec_max_scaled [] [] one = Ok 0 /\ vec_max_scaled_diff [] [] [] = Ok 0 /\ vec_rms_scaled [] [] abs_tol rel_tol = Ok 0 /\ vec_rms_scaled_diff [] [] abs_tol rel_tol = Ok 0) /\
  (length u <> length v -> vec_max_scaled v u one = Panic /\ vec_max_scaled_diff u v s = Panic /\ vec_rms_scaled v u abs_tol rel_tol = Panic /\ vec_rms_scaled_diff u v abs_tol rel_tol = Panic /\ vec_norm_diff u v k = Panic) /\
  (length s <> length v -> vec_max_scaled_diff u v s = Panic).
Proof.
  splits; try reflexivity; intros H; unfold vec_max_scaled, vec_max_scaled_diff, vec_rms_scaled, vec_rms_scaled_diff, vec_norm_diff.
  - rewrite (proj2 (Nat.eqb_neq _ _) H). cbn [assert_ bind]. auto.
  - rewrite (proj2 (Nat.eqb_neq (length s) _) H). destruct (_ =? _)%nat; reflexivity.
Qed.

(* ------------------------------------------------------------------ *)
(** * Real and imaginary parts *)

(** zipping puts the two vectors into the real and the imaginary parts; unzipping takes them apart; they are inverse to each other *)
Theorem C100_vec_zip v real imag n fv fr fi : is_vector v n fv -> is_vector real n fr -> is_vector imag n fi ->
  (exists z, complex_vec_zip v real imag = Ok z /\ is_vector z n (fun i => (fr i, fi i)) /\ complex_vec_unzip real imag z = Ok (real, imag)) /\
  (exists x y, complex_vec_unzip real imag v = Ok (x, y) /\ is_vector x n (fun i => fst (fv i)) /\ is_vector y n (fun i => snd (fv i)) /\ complex_vec_zip v x y = Ok v).
Proof.
  assert (Z : forall v real imag fv fr fi, is_vector v n fv -> is_vector real n fr -> is_vector imag n fi ->
    exists z, complex_vec_zip v real imag = Ok z /\ is_vector z n (fun i => (fr i, fi i))).
  { clear. intros v real imag fv fr fi HV HR HI. unfold complex_vec_zip. rewrite (proj1 HV), (proj1 HR), (proj1 HI), Nat.eqb_refl. cbn [negb orb].
    destruct (for_range_inv (fun k z => length z = n /\ forall i, (i < k)%nat -> nth i z (RtoC 0) = (fr i, fi i))
      (fun i v => x <- vget real i ;; z <- vget v i ;; v <- vset v i (x, snd z) ;; y <- vget imag i ;; z <- vget v i ;; vset v i (fst z, y)) 0 n v) as (z & E & L & H); auto; try lia.
    - split; [apply HV|intros; lia].
    - intros i z Hi (L & H). rewrite (vec_get R 0 real n fr), (vec_get R 0 imag n fi) by (auto; lia). rewrite (vget_ok z i (RtoC 0)) by lia. cbn [bind]. rewrite vset_ok by lia. cbn [bind].
      rewrite (vget_ok _ i (RtoC 0)) by (rewrite upd_length; lia). cbn [bind]. rewrite vset_ok by (rewrite upd_length; lia). eexists. split; [reflexivity|].
      rewrite !upd_length. split; [auto|]. intros j Hj. rewrite !nth_upd by (rewrite ?upd_length; lia). rewrite Nat.eqb_refl. destruct (Nat.eqb_spec j i) as [->|]; [reflexivity|]. apply H. lia.
    - exists z. split; [exact E|]. apply (vec_intro C (RtoC 0)); auto. }
  assert (U : forall v real imag fv fr fi, is_vector v n fv -> is_vector real n fr -> is_vector imag n fi ->
    exists x y, complex_vec_unzip real imag v = Ok (x, y) /\ is_vector x n (fun i => fst (fv i)) /\ is_vector y n (fun i => snd (fv i))).
  { clear. intros v real imag fv fr fi HV HR HI. unfold complex_vec_unzip. rewrite (proj1 HV), (proj1 HR), (proj1 HI), Nat.eqb_refl. cbn [negb orb].
    destruct (for_range_inv (fun k s => length (fst s) = n /\ length (snd s) = n /\ forall i, (i < k)%nat -> nth i (fst s) 0 = fst (fv i) /\ nth i (snd s) 0 = snd (fv i))
      (fun i '(real, imag) => z <- vget v i ;; real <- vset real i (fst z) ;; imag <- vset imag i (snd z) ;; Ok (real, imag)) 0 n (real, imag)) as ([x y] & E & L1 & L2 & H); auto; try lia.
    - simpl. splits; [apply HR|apply HI|intros; lia].
    - intros i [x y] Hi (L1 & L2 & H). simpl in L1, L2, H. rewrite (vec_get C (RtoC 0) v n fv) by (auto; lia). cbn [bind]. rewrite !vset_ok by lia. cbn [bind].
      eexists. split; [reflexivity|]. simpl. rewrite !upd_length. splits; auto. intros j Hj. rewrite !nth_upd by lia. destruct (Nat.eqb_spec j i) as [->|]; [auto|]. apply H. lia.
    - simpl in *. exists x, y. split; [exact E|]. split; apply (vec_intro R 0); auto; intros i Hi; apply H; auto. }
  assert (X : forall (A : Type) (z : A) (x y : list A) f, is_vector x n f -> is_vector y n f -> x = y).
  { clear. intros A z x y f (L1 & H1) (L2 & H2). apply nth_ext with (d := z) (d' := z); [lia|]. intros i Hi. erewrite !nth_error_nth by (first [apply H1|apply H2]; lia). reflexivity. }
  intros HV HR HI. split.
  - destruct (Z v real imag fv fr fi HV HR HI) as (z & E & HZ). exists z. splits; auto. destruct (U z real imag _ fr fi HZ HR HI) as (x & y & E' & HX & HY). rewrite E'. simpl in HX, HY.
    now rewrite (X R 0 x real fr HX HR), (X R 0 y imag fi HY HI).
  - destruct (U v real imag fv fr fi HV HR HI) as (x & y & E & HX & HY). exists x, y. splits; auto. destruct (Z v x y fv _ _ HV HX HY) as (z & E' & HZ). rewrite E'. f_equal.
    apply (X C (RtoC 0) z v fv); auto. destruct HZ as (LZ & HZ). split; auto. intros i Hi. rewrite HZ by auto. now destruct (fv i).
Qed.

Lemma loop2 {S} (Inv : (nat -> nat -> Prop) -> S -> Prop) m n (body : nat -> nat -> S -> res S) s :
  (forall (p q : nat -> nat -> Prop) s, (forall k l, q k l -> p k l) -> Inv p s -> Inv q s) ->
  (forall i j seen s, (i < m)%nat -> (j < n)%nat -> Inv seen s -> exists s', body i j s = Ok s' /\ Inv (fun k l => seen k l \/ k = i /\ l = j) s') ->
  Inv (fun _ _ => False) s -> exists s', for_range 0 m (fun i s => for_range 0 n (body i) s) s = Ok s' /\ Inv (fun k l => (k < m)%nat /\ (l < n)%nat) s'.
Proof.
  intros W B I0. destruct (for_range_inv (fun i s => Inv (fun k l => (k < i)%nat /\ (l < n)%nat) s) (fun i s => for_range 0 n (body i) s) 0 m s) as (s' & E & I); [lia| | |eauto].
  - revert I0. apply W. intros k l. lia.
  - intros i t Hi I. destruct (for_range_inv (fun j s => Inv (fun k l => (k < i)%nat /\ (l < n)%nat \/ k = i /\ (l < j)%nat) s) (body i) 0 n t) as (t' & E & I'); [lia| | |].
    + revert I. apply W. intros k l. lia.
    + intros j u Hj I'. destruct (B i j _ u ltac:(lia) ltac:(lia) I') as (u' & E & I2). exists u'. split; [exact E|]. revert I2. apply W. intros k l. lia.
    + exists t'. split; [exact E|]. revert I'. apply W. intros k l. lia.
Qed.
Definition filled_at {T} (zero : T) m n (f : nat -> nat -> T) (seen : nat -> nat -> Prop) (a : dmat T) : Prop :=
  d_wf a /\ d_nrow a = m /\ d_ncol a = n /\ forall k l, (k < m)%nat -> (l < n)%nat -> seen k l -> dval zero a k l = f k l.
Lemma filled_step {T} (zero : T) m n f seen a i j : filled_at zero m n f seen a -> (i < m)%nat -> (j < n)%nat ->
  exists a', d_set a i j (f i j) = Ok a' /\ filled_at zero m n f (fun k l => seen k l \/ k = i /\ l = j) a'.
Proof.
  intros (W & R & C & H) Hi Hj. destruct (d_set_spec T zero a i j (f i j) W) as (a' & E & W' & R' & C' & V); try lia. exists a'. split; [exact E|]. unfold filled_at. splits; auto; try lia.
  intros k l Hk Hl S. rewrite V by lia. destruct (Nat.eqb_spec k i) as [->|], (Nat.eqb_spec l j) as [->|]; cbn [andb]; auto; apply H; auto; destruct S as [S|S]; auto; lia.
Qed.
Lemma filled_start {T} (zero : T) m n f a g : is_matrix a m n g -> filled_at zero m n f (fun _ _ => False) a.
Proof. intros (R & C & L & _). unfold filled_at, d_wf. splits; auto; try tauto. now rewrite R, C. Qed.
Lemma filled_end {T} (zero : T) m n f a : filled_at zero m n f (fun k l => (k < m)%nat /\ (l < n)%nat) a -> is_matrix a m n f.
Proof. intros (W & R & C & H). unfold is_matrix. splits; auto; [now rewrite W, R, C|]. intros i j Hi Hj. rewrite (d_get_val _ zero) by (auto; lia). now rewrite H. Qed.
Lemma filled_less {T} (zero : T) m n f (p q : nat -> nat -> Prop) a : (forall k l, q k l -> p k l) -> filled_at zero m n f p a -> filled_at zero m n f q a.
Proof. intros E (W & R & C & H). unfold filled_at. splits; auto. Qed.
Lemma is_matrix_unique {T} (zero : T) (a b : dmat T) m n f : is_matrix a m n f -> is_matrix b m n f -> a = b.
Proof.
  intros HA HB. pose proof HA as (R1 & C1 & L1 & _). pose proof HB as (R2 & C2 & L2 & _). destruct a as [ma na da], b as [mb nb db]. simpl in *. subst ma na mb nb. f_equal.
  apply nth_ext with (d := zero) (d' := zero); [lia|]. intros p Hp. rewrite L1 in Hp. assert (m <> 0)%nat by (intros ->; simpl in Hp; lia).
  replace p with (p mod m + p / m * m)%nat by (rewrite (Nat.div_mod p m) at 3 by auto; lia).
  assert (p mod m < m)%nat by (now apply Nat.mod_upper_bound). assert (p / m < n)%nat by (apply Nat.div_lt_upper_bound; auto).
  pose proof (mat_nth T zero _ m n f (p mod m) (p / m) HA) as E1. pose proof (mat_nth T zero _ m n f (p mod m) (p / m) HB) as E2. simpl in E1, E2. now rewrite E1, E2.
Qed.

Theorem C100_mat_zip a real imag m n fa fr fi : is_matrix a m n fa -> is_matrix real m n fr -> is_matrix imag m n fi ->
  (exists z, complex_mat_zip a real imag = Ok z /\ is_matrix z m n (fun i j => (fr i j, fi i j)) /\ complex_mat_unzip real imag z = Ok (real, imag)) /\
  (exists x y, complex_mat_unzip real imag a = Ok (x, y) /\ is_matrix x m n (fun i j => fst (fa i j)) /\ is_matrix y m n (fun i j => snd (fa i j)) /\ complex_mat_zip a x y = Ok a).
Proof.
  assert (Z : forall a real imag fa fr fi, is_matrix a m n fa -> is_matrix real m n fr -> is_matrix imag m n fi ->
    exists z, complex_mat_zip a real imag = Ok z /\ is_matrix z m n (fun i j => (fr i j, fi i j))).
  { clear. intros a real imag fa fr fi HA HR HI. unfold complex_mat_zip. pose proof HA as (A1 & A2 & _). pose proof HR as (R1 & R2 & _ & R4). pose proof HI as (I1 & I2 & _ & I4).
    rewrite A1, A2, R1, R2, I1, I2, !Nat.eqb_refl. cbn [negb orb].
    destruct (loop2 (filled_at (RtoC 0) m n (fun i j => (fr i j, fi i j))) m n (fun i j a => x <- d_get real i j ;; y <- d_get imag i j ;; d_set a i j (x, y)) a) as (z & E & H).
    - intros. eapply filled_less; eauto.
    - intros i j seen s Hi Hj H. rewrite R4, I4 by auto. cbn [bind]. apply (filled_step (RtoC 0) m n (fun i j => (fr i j, fi i j))); auto.
    - eapply filled_start; eauto.
    - exists z. split; [exact E|]. eapply filled_end; eauto. }
  assert (U : forall a real imag fa fr fi, is_matrix a m n fa -> is_matrix real m n fr -> is_matrix imag m n fi ->
    exists x y, complex_mat_unzip real imag a = Ok (x, y) /\ is_matrix x m n (fun i j => fst (fa i j)) /\ is_matrix y m n (fun i j => snd (fa i j))).
  { clear. intros a real imag fa fr fi HA HR HI. unfold complex_mat_unzip. pose proof HA as (A1 & A2 & _ & A4). pose proof HR as (R1 & R2 & _). pose proof HI as (I1 & I2 & _).
    rewrite A1, A2, R1, R2, I1, I2, !Nat.eqb_refl. cbn [negb orb].
    destruct (loop2 (fun seen s => filled_at 0 m n (fun i j => fst (fa i j)) seen (fst s) /\ filled_at 0 m n (fun i j => snd (fa i j)) seen (snd s)) m n
      (fun i j '(real, imag) => z <- d_get a i j ;; real <- d_set real i j (fst z) ;; imag <- d_set imag i j (snd z) ;; Ok (real, imag)) (real, imag)) as ([x y] & E & H1 & H2).
    - intros p q s Q (H1 & H2). split; eapply filled_less; eauto.
    - intros i j seen [x y] Hi Hj (H1 & H2). simpl in H1, H2. rewrite A4 by auto. cbn [bind].
      destruct (filled_step 0 m n _ seen x i j H1 Hi Hj) as (x' & E1 & X1). destruct (filled_step 0 m n _ seen y i j H2 Hi Hj) as (y' & E2 & X2). cbn beta in E1, E2.
      rewrite E1. cbn [bind]. rewrite E2. cbn [bind]. eexists. split; [reflexivity|]. auto.
    - split; eapply filled_start; eauto.
    - exists x, y. split; [exact E|]. split; eapply filled_end; eauto. }
  intros HA HR HI. split.
  - destruct (Z a real imag fa fr fi HA HR HI) as (z & E & HZ). exists z. splits; auto. destruct (U z real imag _ fr fi HZ HR HI) as (x & y & E' & HX & HY). rewrite E'. simpl in HX, HY.
    now rewrite (is_matrix_unique 0 x real m n fr HX HR), (is_matrix_unique 0 y imag m n fi HY HI).
  - destruct (U a real imag fa fr fi HA HR HI) as (x & y & E & HX & HY). exists x, y. splits; auto. destruct (Z a x y fa _ _ HA HX HY) as (z & E' & HZ). rewrite E'. f_equal.
    apply (is_matrix_unique (RtoC 0) z a m n fa); auto. apply (mat_ext _ (RtoC 0) _ _ _ _ _ HZ). intros i j Hi Hj. now destruct (fa i j).
Qed.
(** wrong sizes are errors *)
Theorem C100_zip_sizes (v : list C) (real imag : list R) (a : dmat C) (x y : dmat R) :
  (length real <> length v \/ length imag <> length v -> (exists e, complex_vec_zip v real imag = Err e) /\ (exists e, complex_vec_unzip real imag v = Err e)) /\
  (d_nrow x <> d_nrow a \/ d_ncol x <> d_ncol a \/ d_nrow y <> d_nrow a \/ d_ncol y <> d_ncol a -> (exists e, complex_mat_zip a x y = Err e) /\ (exists e, complex_mat_unzip x y a = Err e)).
Proof.
  split; intros H.
  - unfold complex_vec_zip, complex_vec_unzip. destruct (Nat.eqb_spec (length real) (length v)); cbn [negb orb]; [|split; eauto]. destruct (Nat.eqb_spec (length imag) (length v)); cbn [negb orb]; [lia|split; eauto].
  - unfold complex_mat_zip, complex_mat_unzip. repeat (match goal with |- context [(?p =? ?q)%nat] => destruct (Nat.eqb_spec p q); cbn [negb orb]; [|split; eauto] end). lia.
Qed.

(* ------------------------------------------------------------------ *)
(** * Non-vacuity *)
(** the moduli of the real and of the complex numbers have the properties asked for in C100_mat_norm_laws *)
Example ex_R_mag : (forall x, 0 <= Rabs x) /\ (forall x, Rabs x = 0 <-> x = 0) /\ (forall x y, Rabs (x + y) <= Rabs x + Rabs y) /\ (forall x y, Rabs (x * y) = Rabs x * Rabs y).
Proof. splits; [apply Rabs_pos| |apply Rabs_triang|apply Rabs_mult]. intros x. split; [intros H; destruct (Req_dec x 0); auto; exfalso; now apply (Rabs_no_R0 x)|intros ->; apply Rabs_R0]. Qed.
Example ex_C_mag : (forall x, 0 <= Cmod x) /\ (forall x, Cmod x = 0 <-> x = RtoC 0) /\ (forall x y, Cmod (x + y)%C <= Cmod x + Cmod y) /\ (forall x y, Cmod (x * y)%C = Cmod x * Cmod y).
Proof. splits; [apply Cmod_ge_0| |apply Cmod_triangle|apply Cmod_mult]. intros x. split; [apply Cmod_eq_0|intros ->; apply Cmod_0]. Qed.
(** the matrix of the documentation of mat_norm: rows (-2, 2) and (1, -4); its 1-norm is 6 and its inf-norm is 5 *)
Example ex_mat_norm : let a := mkD 2 2 [-2; 1; 2; -4] in mat_norm R Rabs a One = Ok 6 /\ mat_norm R Rabs a Inf = Ok 5.
Proof.
  assert (H : is_matrix (mkD 2 2 [-2; 1; 2; -4]) 2 2 (fun i j => nth (i + j * 2) [-2; 1; 2; -4] 0)) by (apply (is_matrix_dval R 0); auto).
  assert (S2 : small 2) by (unfold small; lia).
  assert (E : Rabs (-2) = 2 /\ Rabs 1 = 1 /\ Rabs 2 = 2 /\ Rabs (-4) = 4) by (splits; unfold Rabs; match goal with |- context [Rcase_abs ?x] => destruct (Rcase_abs x); lra end). destruct E as (E1 & E2 & E3 & E4).
  simpl. split; (rewrite (mat_norm_value R 0 Rabs _ 2 2 _ _ H) by (auto; lia)); f_equal; unfold mg, outer, inner; simpl; rewrite E1, E2, E3, E4; unfold Rmax; repeat (match goal with |- context [Rle_dec ?x ?y] => destruct (Rle_dec x y) end); lra.
Qed.
Example ex_zip : complex_vec_zip [RtoC 0; RtoC 0] [1; 2] [3; 4] = Ok [(1, 3); (2, 4)].
Proof. reflexivity. Qed.
Example ex_rms : vec_rms_scaled [3] [2] 1 1 = Ok (sqrt ((0 + 3 * 3 / ((1 + 1 * Rabs 2) * (1 + 1 * Rabs 2))) / 1)).
Proof. reflexivity. Qed.

Print Assumptions C100_mat_norm.
Print Assumptions C100_mat_norm_laws.
Print Assumptions C100_vec_ops.
Print Assumptions C100_vec_sizes.
Print Assumptions C100_mat_ops.
Print Assumptions C100_mat_sizes.
Print Assumptions C100_mat_max_abs_diff.
Print Assumptions C100_vec_norm.
Print Assumptions C100_vec_norm_diff.
Print Assumptions C100_vec_norm_chunk.
Print Assumptions C100_complex_vec_norm.
Print Assumptions C100_max_scaled.
Print Assumptions C100_max_scaled_diff.
Print Assumptions C100_rms_scaled.
Print Assumptions C100_rms_scaled_diff.
Print Assumptions C100_measure_sizes.
Print Assumptions C100_vec_zip.
Print Assumptions C100_mat_zip.
Print Assumptions C100_zip_sizes.
