(** C27 linear fitting, C31 cubic equations. *)
From Coq Require Import Sorting.Permutation Sorting.Sorted Lra Rtrigo_calc Ranalysis Rtrigo1 Ratan.
From Verif Require Import RSum Fit_Model.
Open Scope R_scope.

(* ------------------------------------------------------------------ *)
(** * Least squares *)

(** specification: sum of the squared residuals of the line c + m x *)
Definition sse (x y : list R) (c m : R) : R :=
  sumn (length x) (fun i => (nth i y 0 - (c + m * nth i x 0)) ^ 2).

Lemma sse_expand x y c m :
  sse x y c m =
  sumn (length x) (fun i => nth i y 0 * nth i y 0) + INR (length x) * (c * c)
  + m * m * sumn (length x) (fun i => nth i x 0 * nth i x 0)
  - 2 * c * sumn (length x) (fun i => nth i y 0)
  - 2 * m * sumn (length x) (fun i => nth i x 0 * nth i y 0)
  + 2 * c * m * sumn (length x) (fun i => nth i x 0).
Proof.
  unfold sse. rewrite <- sumn_const, <- !sumn_scal, <- !sumn_plus, <- !sumn_minus, <- !sumn_plus.
  apply sumn_ext. intros. ring.
Qed.

Lemma linear_fitting_eq x y z :
  length y = length x ->
  let n := INR (length x) in
  let sx := sumn (length x) (fun i => nth i x 0) in
  let sy := sumn (length x) (fun i => nth i y 0) in
  let sxy := sumn (length x) (fun i => nth i x 0 * nth i y 0) in
  let sxx := sumn (length x) (fun i => nth i x 0 * nth i x 0) in
  linear_fitting x y z =
  if z then if Reqb sxx 0 then Ok (0, None) else Ok (0, Some (sxy / sxx))
  else if Reqb (sx * sx - n * sxx) 0 then Ok (0, None)
  else Ok ((sx * sxy - sxx * sy) / (sx * sx - n * sxx), Some ((sx * sy - n * sxy) / (sx * sx - n * sxx))).
Proof.
  intros H. cbv zeta. unfold linear_fitting. rewrite H, Nat.eqb_refl. cbn [negb].
  rewrite (for_range_val (fun k => (sumn k (fun i => nth i x 0), sumn k (fun i => nth i y 0),
             sumn k (fun i => nth i x 0 * nth i y 0), sumn k (fun i => nth i x 0 * nth i x 0)))); [reflexivity|lia|reflexivity|].
  intros i Hi. rewrite !(vget_ok _ _ 0) by lia. reflexivity.
Qed.

(** C27, mismatching arrays *)
Theorem C27_lengths x y z : length y <> length x ->
  linear_fitting x y z = Err "arrays must have the same lengths".
Proof. intros H. unfold linear_fitting. destruct (Nat.eqb_spec (length y) (length x)); [contradiction|reflexivity]. Qed.
Print Assumptions C27_lengths.

(** Cauchy-Schwarz with its case of equality *)
Lemma variance n f :
  INR n * sumn n (fun i => f i * f i) - sumn n f * sumn n f
  = / 2 * sumn n (fun i => sumn n (fun j => (f i - f j) ^ 2)).
Proof.
  rewrite (sumn_ext n (fun i => sumn n (fun j => (f i - f j) ^ 2))
    (fun i => INR n * (f i * f i) + sumn n (fun j => f j * f j) - 2 * (f i * sumn n f))).
  { rewrite sumn_minus, sumn_plus, sumn_const, sumn_scal, sumn_scal, sumn_scal_r. field. }
  intros i _. rewrite <- sumn_const, <- sumn_scal, <- sumn_scal, <- sumn_plus, <- sumn_minus.
  apply sumn_ext. intros. ring.
Qed.

Lemma all_equal n f :
  sumn n f * sumn n f - INR n * sumn n (fun i => f i * f i) = 0 <->
  (forall i j, (i < n)%nat -> (j < n)%nat -> f i = f j).
Proof.
  assert (P : forall i j, 0 <= (f i - f j) ^ 2) by (intros; apply pow2_ge_0).
  pose proof (variance n f) as V. split.
  - intros E i j Hi Hj.
    assert (Z : sumn n (fun i => sumn n (fun j => (f i - f j) ^ 2)) = 0) by lra.
    pose proof (sumn_nonneg_zero _ _ (fun i _ => sumn_nonneg n _ (fun j _ => P i j)) Z i Hi) as Z1. cbv beta in Z1.
    pose proof (sumn_nonneg_zero _ _ (fun j _ => P i j) Z1 j Hj) as Z2. cbv beta in Z2.
    assert (f i - f j = 0) by nra. lra.
  - intros H.
    assert (Z : sumn n (fun i => sumn n (fun j => (f i - f j) ^ 2)) = 0).
    { apply sumn_zero. intros i Hi. apply sumn_zero. intros j Hj. rewrite (H i j) by auto. ring. }
    lra.
Qed.

(** C27: for the free line, the answer minimises the sum of squared residuals
    among all the lines, and it is the only minimiser; the infinite slope is
    returned exactly when all the abscissae coincide. *)
Theorem C27_free x y :
  length y = length x ->
  (exists c m, linear_fitting x y false = Ok (c, Some m) /\
     (exists i j, (i < length x)%nat /\ (j < length x)%nat /\ nth i x 0 <> nth j x 0) /\
     forall c' m', sse x y c m <= sse x y c' m' /\ (sse x y c' m' = sse x y c m -> c' = c /\ m' = m)) \/
  (linear_fitting x y false = Ok (0, None) /\
     forall i j, (i < length x)%nat -> (j < length x)%nat -> nth i x 0 = nth j x 0).
Proof.
  intros H. rewrite (linear_fitting_eq x y false H). cbv zeta. cbv iota.
  destruct (Reqb_spec (sumn (length x) (fun i => nth i x 0) * sumn (length x) (fun i => nth i x 0) -
      INR (length x) * sumn (length x) (fun i => nth i x 0 * nth i x 0)) 0) as [E|E].
  { right. split; auto. exact (proj1 (all_equal (length x) (fun i => nth i x 0)) E). }
  left. do 2 eexists. split; [reflexivity|].
  assert (V := variance (length x) (fun i => nth i x 0)).
  assert (P : forall i j, 0 <= (nth i x 0 - nth j x 0) ^ 2) by (intros; apply pow2_ge_0).
  assert (N : 0 <= sumn (length x) (fun i => sumn (length x) (fun j => (nth i x 0 - nth j x 0) ^ 2)))
    by (apply sumn_nonneg; intros; now apply sumn_nonneg).
  split.
  { (* classical search, by decidability over a finite range *)
    assert (D : forall (f : nat -> R) n, (exists i, (i < n)%nat /\ f i <> f 0%nat) \/ (forall i, (i < n)%nat -> f i = f 0%nat)).
    { induction n as [|n [(i & Hi & Hf)|IH]]; [right; intros; lia| |].
      - left. exists i. split; auto.
      - destruct (Req_EM_T (f n) (f 0%nat)) as [Ef|Ef].
        + right. intros i Hi. destruct (Nat.eq_dec i n) as [->|]; auto. apply IH. lia.
        + left. exists n. auto. }
    destruct (D (fun i => nth i x 0) (length x)) as [(i & Hi & Hf)|A].
    - exists i, 0%nat. splits; auto; lia.
    - exfalso. apply E. apply (all_equal (length x) (fun i => nth i x 0)). intros i j Hi Hj.
      rewrite (A i), (A j); auto. }
  rewrite !sse_expand in *.
  set (sx := sumn (length x) (fun i => nth i x 0)) in *.
  set (sxx := sumn (length x) (fun i => nth i x 0 * nth i x 0)) in *.
  set (sy := sumn (length x) (fun i => nth i y 0)) in *.
  set (sxy := sumn (length x) (fun i => nth i x 0 * nth i y 0)) in *.
  set (syy := sumn (length x) (fun i => nth i y 0 * nth i y 0)) in *.
  set (n := INR (length x)) in *.
  assert (Dp : 0 < n * sxx - sx * sx) by lra.
  assert (Hn : 0 < n).
  { assert (0 <= n) by apply pos_INR. assert (0 <= sxx) by (apply sumn_nonneg; intros; nra). nra. }
  intros c' m'. rewrite !sse_expand. fold sx sxx sy sxy syy n.
  set (c := (sx * sxy - sxx * sy) / (sx * sx - n * sxx)).
  set (m := (sx * sy - n * sxy) / (sx * sx - n * sxx)).
  assert (N1 : n * c + m * sx = sy) by (unfold c, m; field; auto).
  assert (N2 : c * sx + m * sxx = sxy) by (unfold c, m; field; auto).
  clearbody c m. 
  assert (G : syy + n * (c' * c') + m' * m' * sxx - 2 * c' * sy - 2 * m' * sxy + 2 * c' * m' * sx -
     (syy + n * (c * c) + m * m * sxx - 2 * c * sy - 2 * m * sxy + 2 * c * m * sx) =
     ((n * (c' - c) + (m' - m) * sx) ^ 2 + (m' - m) ^ 2 * (n * sxx - sx * sx)) / n).
  { rewrite <- N1, <- N2. field. lra. }
  assert (A1 := pow2_ge_0 (n * (c' - c) + (m' - m) * sx)). assert (A2 := pow2_ge_0 (m' - m)).
  assert (A3 : 0 <= (m' - m) ^ 2 * (n * sxx - sx * sx)) by nra.
  split.
  - assert (0 <= ((n * (c' - c) + (m' - m) * sx) ^ 2 + (m' - m) ^ 2 * (n * sxx - sx * sx)) / n).
    { apply Rmult_le_pos; [lra|]. left. now apply Rinv_0_lt_compat. }
    lra.
  - intros Eq.
    assert (Z : (n * (c' - c) + (m' - m) * sx) ^ 2 + (m' - m) ^ 2 * (n * sxx - sx * sx) = 0).
    { assert (((n * (c' - c) + (m' - m) * sx) ^ 2 + (m' - m) ^ 2 * (n * sxx - sx * sx)) / n = 0) as Z by lra.
      apply (f_equal (fun t => t * n)) in Z. rewrite Rmult_0_l in Z. rewrite <- Z. field. lra. }
    assert (Z2 : (m' - m) ^ 2 = 0) by nra.
    assert (Z3 : m' - m = 0) by nra.
    rewrite Z3 in Z. assert (n * (c' - c) = 0) by nra. assert (c' - c = 0) by nra. split; lra.
Qed.
Print Assumptions C27_free.

(** C27: through the origin *)
Theorem C27_origin x y :
  length y = length x ->
  (exists m, linear_fitting x y true = Ok (0, Some m) /\
     (exists i, (i < length x)%nat /\ nth i x 0 <> 0) /\
     forall m', sse x y 0 m <= sse x y 0 m' /\ (sse x y 0 m' = sse x y 0 m -> m' = m)) \/
  (linear_fitting x y true = Ok (0, None) /\ forall i, (i < length x)%nat -> nth i x 0 = 0).
Proof.
  intros H. rewrite (linear_fitting_eq x y true H). cbv zeta. cbv iota.
  assert (Q : forall i, (i < length x)%nat -> 0 <= nth i x 0 * nth i x 0) by (intros; nra).
  destruct (Reqb_spec (sumn (length x) (fun i => nth i x 0 * nth i x 0)) 0) as [E|E].
  { right. split; auto. intros i Hi. pose proof (sumn_nonneg_zero _ _ Q E i Hi) as Z. cbv beta in Z. nra. }
  left. eexists. split; [reflexivity|]. split.
  { assert (D : forall n, (exists i, (i < n)%nat /\ nth i x 0 <> 0) \/ (forall i, (i < n)%nat -> nth i x 0 = 0)).
    { induction n as [|n [(i & Hi & Hf)|IH]]; [right; intros; lia|left; exists i; auto|].
      destruct (Req_EM_T (nth n x 0) 0) as [Ef|Ef]; [|left; exists n; auto].
      right. intros i Hi. destruct (Nat.eq_dec i n) as [->|]; auto. apply IH. lia. }
    destruct (D (length x)) as [W|A]; auto. exfalso. apply E. apply sumn_zero. intros i Hi. rewrite A by auto. ring. }
  pose proof (sumn_nonneg _ _ Q) as Q1.
  intros m'. rewrite !sse_expand.
  set (sxx := sumn (length x) (fun i => nth i x 0 * nth i x 0)) in *.
  set (sxy := sumn (length x) (fun i => nth i x 0 * nth i y 0)) in *.
  set (syy := sumn (length x) (fun i => nth i y 0 * nth i y 0)) in *.
  assert (sxx > 0) by lra.
  set (m := sxy / sxx). assert (M : m * sxx = sxy) by (unfold m; field; lra). clearbody m.
  rewrite <- M. clearbody sxx syy. split; [|intros]; [pose proof (pow2_ge_0 (m' - m)); nra|].
  assert (sxx * (m' - m) ^ 2 = 0) by nra. assert ((m' - m) ^ 2 = 0) by nra. assert (m' - m = 0) by nra. lra.
Qed.
Print Assumptions C27_origin.

Example C27_ex : exists c, linear_fitting [0; 1; 3; 5] [1; 0; 2; 4] false = Ok (c, Some (41 / 59)) /\ c = 11 / 59.
Proof.
  rewrite linear_fitting_eq by reflexivity. cbn [length sumn nth].
  match goal with |- context [Reqb ?a 0] => destruct (Reqb_spec a 0) as [E|E] end; [cbn in E; lra|].
  eexists. split; [apply f_equal, f_equal2; [reflexivity|apply f_equal]|]; cbn [INR]; field.
Qed.

(* ------------------------------------------------------------------ *)
(** * Cubic equations *)

(** specification *)
Definition cubic (a b c d x : R) : R := a * x ^ 3 + b * x ^ 2 + c * x + d.
Definition discriminant (a b c d : R) : R :=
  18 * a * b * c * d - 4 * b ^ 3 * d + b ^ 2 * c ^ 2 - 4 * a * c ^ 3 - 27 * a ^ 2 * d ^ 2.

Lemma cbrt_cube x : cbrt x ^ 3 = x.
Proof.
  assert (P : forall z, 0 < z -> Rpower z (/ 3) ^ 3 = z).
  { intros z Hz. rewrite <- Rpower_pow by apply exp_pos. rewrite Rpower_mult.
    replace (/ 3 * INR 3) with 1 by (cbn; field). now apply Rpower_1. }
  unfold cbrt. destruct (Rltb_spec 0 x); [auto|]. destruct (Rltb_spec x 0).
  - replace ((- Rpower (- x) (/ 3)) ^ 3) with (- Rpower (- x) (/ 3) ^ 3) by ring. rewrite P by lra. ring.
  - replace x with 0 by lra. ring.
Qed.

Lemma cube_inj x y : x ^ 3 = y ^ 3 -> x = y.
Proof.
  intros H. assert ((x - y) * (x * x + x * y + y * y) = 0) by (replace ((x - y) * (x * x + x * y + y * y)) with (x ^ 3 - y ^ 3) by ring; lra).
  destruct (Rmult_integral _ _ H0); [lra|].
  assert (A : y * y = 0) by (pose proof (pow2_ge_0 (x + y / 2)); pose proof (pow2_ge_0 y); nra).
  assert (B : x * x = 0) by (pose proof (pow2_ge_0 (y + x / 2)); pose proof (pow2_ge_0 x); nra).
  apply Rmult_integral in A. apply Rmult_integral in B. lra.
Qed.

Lemma insert_sorted_perm x l : Permutation (insert_sorted x l) (x :: l).
Proof.
  induction l as [|y t IH]; cbn; auto. destruct (Rleb x y); auto.
  rewrite IH. apply perm_swap.
Qed.
Lemma sort_perm l : Permutation (sort_reals l) l.
Proof. induction l as [|x l IH]; cbn; auto. rewrite insert_sorted_perm. now constructor. Qed.
Lemma insert_sorted_sorted x l : Sorted Rle l -> Sorted Rle (insert_sorted x l).
Proof.
  induction l as [|y t IH]; intros H; cbn; [repeat constructor|].
  destruct (Rleb_spec x y) as [L|L]; [constructor; auto|].
  inversion H; subst. constructor; auto.
  destruct t as [|z t]; cbn; [constructor; lra|]. destruct (Rleb x z); constructor; [lra|].
  now inversion H3.
Qed.
Lemma sort_sorted l : Sorted Rle (sort_reals l).
Proof. induction l; cbn; [constructor|]. now apply insert_sorted_sorted. Qed.

(** product of the factors z - x over the list *)
Definition factors (z : R) (l : list R) : R := fold_right (fun x acc => (z - x) * acc) 1 l.
Lemma factors_perm z l l' : Permutation l l' -> factors z l = factors z l'.
Proof. unfold factors. induction 1; cbn; [reflexivity|now rewrite IHPermutation|ring|congruence]. Qed.

Lemma sort3 y1 y2 y3 : exists x1 x2 x3, sort_reals [y1; y2; y3] = [x1; x2; x3] /\ x1 <= x2 <= x3 /\
  forall z, (z - x1) * (z - x2) * (z - x3) = (z - y1) * (z - y2) * (z - y3).
Proof.
  pose proof (sort_perm [y1; y2; y3]) as P. pose proof (sort_sorted [y1; y2; y3]) as So.
  destruct (sort_reals [y1; y2; y3]) as [|x1 [|x2 [|x3 [|x4 t]]]] eqn:E;
    pose proof (Permutation_length P) as L; try discriminate.
  exists x1, x2, x3. split; auto. split.
  - inversion So as [|? ? S1 H1]; subst. inversion H1; subst. inversion S1 as [|? ? S2 H2]; subst. inversion H2; subst. lra.
  - intros z. pose proof (factors_perm z _ _ P) as F. cbn in F. lra.
Qed.

(** the discriminant in terms of the factors *)
Lemma discriminant_factors a b c d x1 x2 x3 :
  (forall z, cubic a b c d z = a * ((z - x1) * (z - x2) * (z - x3))) ->
  discriminant a b c d = a ^ 4 * ((x1 - x2) * (x2 - x3) * (x1 - x3)) ^ 2.
Proof.
  intros H. pose proof (H 0) as H0. pose proof (H 1) as H1. pose proof (H (-1)) as H2. unfold cubic in *.
  assert (d = - a * (x1 * x2 * x3)) by lra.
  assert (b = - a * (x1 + x2 + x3)) by lra.
  assert (c = a * (x1 * x2 + x2 * x3 + x1 * x3)) by lra.
  subst b c d. unfold discriminant. ring.
Qed.

Lemma delta_disc a b c d : a <> 0 ->
  (((d / a) - ((b / a) * (c / a)) / 3 + (2 * (b / a) * ((b / a) * (b / a))) / 27) / 2) *
  (((d / a) - ((b / a) * (c / a)) / 3 + (2 * (b / a) * ((b / a) * (b / a))) / 27) / 2)
  + (((c / a) - ((b / a) * (b / a)) / 3) / 3) ^ 3 = - discriminant a b c d / (108 * a ^ 4).
Proof. intros H. unfold discriminant. field. auto. Qed.

Section Cubic.
Variables a b c d : R.
Hypothesis Ha : CEPS <= Rabs a.

Let p := b / a.
Let h := ((d / a) - ((b / a) * (c / a)) / 3 + (2 * (b / a) * ((b / a) * (b / a))) / 27) / 2.
Let t := ((c / a) - ((b / a) * (b / a)) / 3) / 3.

Lemma CEPS_pos : 0 < CEPS. Proof. unfold CEPS. lra. Qed.
Lemma a_nz : a <> 0.
Proof. intros E. rewrite E, Rabs_R0 in Ha. pose proof CEPS_pos. lra. Qed.

Lemma depressed y : cubic a b c d (y - p / 3) = a * (y ^ 3 + 3 * t * y + 2 * h).
Proof. unfold cubic, p, h, t. field. apply a_nz. Qed.

Lemma delta_eq : h * h + t ^ 3 = - discriminant a b c d / (108 * a ^ 4).
Proof. unfold h, t. rewrite <- delta_disc by apply a_nz. reflexivity. Qed.

Lemma a4_pos : 0 < a ^ 4.
Proof.
  assert (0 < a * a) by (pose proof a_nz; nra). replace (a ^ 4) with ((a * a) * (a * a)) by ring. nra.
Qed.

Lemma unfold_solve : solve_cubic a b c d =
  Ok (sort_reals (map (fun y => y - p / 3)
    (if Rltb CEPS (h * h + t ^ 3) then [cbrt (- h + sqrt (h * h + t ^ 3)) + cbrt (- h - sqrt (h * h + t ^ 3))]
     else if Rltb (h * h + t ^ 3) (- CEPS) then
       [2 * sqrt (- t) * cos (acos (clamp1 (- h / sqrt (- t) ^ 3)) / 3);
        2 * sqrt (- t) * cos ((acos (clamp1 (- h / sqrt (- t) ^ 3)) + 2 * PI) / 3);
        2 * sqrt (- t) * cos ((acos (clamp1 (- h / sqrt (- t) ^ 3)) + 4 * PI) / 3)]
     else if Rltb (Rabs h) CEPS then [0; 0; 0] else [2 * cbrt (- h); - cbrt (- h); - cbrt (- h)]))).
Proof. unfold solve_cubic. destruct (Rltb_spec (Rabs a) CEPS); [lra|]. reflexivity. Qed.

Lemma one_root : CEPS < h * h + t ^ 3 ->
  exists x, solve_cubic a b c d = Ok [x] /\ cubic a b c d x = 0 /\ forall z, cubic a b c d z = 0 -> z = x.
Proof.
  intros Hd. rewrite unfold_solve. destruct (Rltb_spec CEPS (h * h + t ^ 3)); [|lra]. cbn [map].
  pose proof CEPS_pos. set (D := h * h + t ^ 3) in *.
  assert (S2 : sqrt D * sqrt D = D) by (apply sqrt_sqrt; lra).
  assert (SP : 0 < sqrt D) by (apply sqrt_lt_R0; lra).
  set (u := cbrt (- h + sqrt D)). set (v := cbrt (- h - sqrt D)).
  assert (U : u ^ 3 = - h + sqrt D) by apply cbrt_cube. assert (V : v ^ 3 = - h - sqrt D) by apply cbrt_cube.
  assert (UV : u * v = - t).
  { apply cube_inj. replace ((u * v) ^ 3) with (u ^ 3 * v ^ 3) by ring. rewrite U, V.
    replace ((- h + sqrt D) * (- h - sqrt D)) with (h * h - sqrt D * sqrt D) by ring. rewrite S2. unfold D. ring. }
  assert (N : u <> v) by (intros E; rewrite E in U; lra).
  assert (R0 : (u + v) ^ 3 + 3 * t * (u + v) + 2 * h = 0).
  { replace ((u + v) ^ 3) with (u ^ 3 + v ^ 3 + 3 * (u * v) * (u + v)) by ring. rewrite U, V, UV. ring. }
  exists (u + v - p / 3). split; [reflexivity|]. split.
  - rewrite depressed, R0. ring.
  - intros z Hz. replace z with ((z + p / 3) - p / 3) in Hz by ring. rewrite depressed in Hz.
    set (w := z + p / 3) in *. pose proof a_nz.
    assert (E : w ^ 3 + 3 * t * w + 2 * h = 0) by (destruct (Rmult_integral _ _ Hz); [contradiction|auto]).
    set (y := u + v) in *.
    assert (F : (w - y) * (w * w + w * y + y * y + 3 * t) = 0).
    { replace ((w - y) * (w * w + w * y + y * y + 3 * t)) with (w ^ 3 + 3 * t * w + 2 * h - (y ^ 3 + 3 * t * y + 2 * h)) by ring. lra. }
    destruct (Rmult_integral _ _ F) as [F1|F1]; [unfold w in F1; lra|]. exfalso.
    assert (0 < (u - v) * (u - v)) by (change (0 < Rsqr (u - v)); apply Rlt_0_sqr; intros Z; apply N; lra).
    assert (4 * (w * w + w * y + y * y + 3 * t) = (2 * w + y) * (2 * w + y) + 3 * ((u - v) * (u - v))).
    { replace t with (- (u * v)) by lra. unfold y. ring. }
    rewrite F1 in H3. pose proof (Rle_0_sqr (2 * w + y)) as Sq. unfold Rsqr in Sq. lra.
Qed.

Lemma three_factors y1 y2 y3 :
  y1 + y2 + y3 = 0 -> y1 * y2 + y2 * y3 + y1 * y3 = 3 * t -> y1 * y2 * y3 = - 2 * h ->
  forall z, cubic a b c d z = a * ((z - (y1 - p / 3)) * (z - (y2 - p / 3)) * (z - (y3 - p / 3))).
Proof.
  intros E1 E2 E3 z. replace z with ((z + p / 3) - p / 3) at 1 by ring. rewrite depressed.
  f_equal. set (w := z + p / 3). replace (z - (y1 - p / 3)) with (w - y1) by (unfold w; ring).
  replace (z - (y2 - p / 3)) with (w - y2) by (unfold w; ring). replace (z - (y3 - p / 3)) with (w - y3) by (unfold w; ring).
  replace ((w - y1) * (w - y2) * (w - y3)) with (w ^ 3 - (y1 + y2 + y3) * w ^ 2 + (y1 * y2 + y2 * y3 + y1 * y3) * w - y1 * y2 * y3) by ring.
  rewrite E1, E2, E3. ring.
Qed.

Lemma finish3 y1 y2 y3 :
  y1 + y2 + y3 = 0 -> y1 * y2 + y2 * y3 + y1 * y3 = 3 * t -> y1 * y2 * y3 = - 2 * h ->
  exists x1 x2 x3, sort_reals [y1 - p / 3; y2 - p / 3; y3 - p / 3] = [x1; x2; x3] /\ x1 <= x2 <= x3 /\
    forall z, cubic a b c d z = a * ((z - x1) * (z - x2) * (z - x3)).
Proof.
  intros E1 E2 E3. destruct (sort3 (y1 - p / 3) (y2 - p / 3) (y3 - p / 3)) as (x1 & x2 & x3 & -> & L & F).
  exists x1, x2, x3. split; [auto|]. split; [auto|]. intros z. rewrite F. now apply three_factors.
Qed.

Lemma three_roots : h * h + t ^ 3 < - CEPS ->
  exists x1 x2 x3, solve_cubic a b c d = Ok [x1; x2; x3] /\ x1 <= x2 <= x3 /\
    forall z, cubic a b c d z = a * ((z - x1) * (z - x2) * (z - x3)).
Proof.
  intros Hd. rewrite unfold_solve. pose proof CEPS_pos.
  destruct (Rltb_spec CEPS (h * h + t ^ 3)); [lra|]. destruct (Rltb_spec (h * h + t ^ 3) (- CEPS)); [|lra]. cbn [map].
  assert (Ht : 0 < - t). { assert (t ^ 3 < 0) by nra. destruct (Rle_lt_dec 0 t); [|lra]. pose proof (pow_le t 3 r). lra. }
  set (s := sqrt (- t)).
  assert (S2 : s * s = - t) by (apply sqrt_sqrt; lra). assert (SP : 0 < s) by (apply sqrt_lt_R0; lra).
  set (q := - h / s ^ 3). assert (S3 : 0 < s ^ 3) by (apply pow_lt; auto).
  assert (Q2 : q * q <= 1).
  { unfold q. replace (- h / s ^ 3 * (- h / s ^ 3)) with ((h * h) / ((s * s) ^ 3)) by (field; lra).
    rewrite S2. apply Rmult_le_reg_r with ((- t) ^ 3); [apply pow_lt; lra|].
    unfold Rdiv. rewrite Rmult_assoc, Rinv_l by (apply pow_nonzero; lra). replace ((- t) ^ 3) with (- t ^ 3) by ring. lra. }
  assert (Q1 : -1 <= q <= 1) by nra.
  replace (clamp1 q) with q by (unfold clamp1; rewrite (Rmin_left q 1), (Rmax_right (-1) q) by lra; auto).
  assert (K : cos (acos q) = q) by (apply cos_acos; lra).
  set (th := acos q) in *. set (C := cos (th / 3)). set (Sn := sin (th / 3)).
  assert (CS : C * C + Sn * Sn = 1) by (pose proof (sin2_cos2 (th / 3)) as P1; unfold Rsqr in P1; fold C Sn in P1; lra).
  assert (S33 : sqrt 3 * sqrt 3 = 3) by (apply sqrt_sqrt; lra).
  assert (C23 : cos (2 * (PI / 3)) = - 1 / 2) by apply cos_2PI3.
  assert (S23 : sin (2 * (PI / 3)) = sqrt 3 / 2) by apply sin_2PI3.
  assert (C2 : cos ((th + 2 * PI) / 3) = - C / 2 - sqrt 3 / 2 * Sn).
  { replace ((th + 2 * PI) / 3) with (th / 3 + 2 * (PI / 3)) by field. rewrite cos_plus, C23, S23. unfold C, Sn. field. }
  assert (C3 : cos ((th + 4 * PI) / 3) = - C / 2 + sqrt 3 / 2 * Sn).
  { replace ((th + 4 * PI) / 3) with (th / 3 + 2 * (2 * (PI / 3))) by field. rewrite cos_plus, (cos_2a (2 * (PI / 3))), (sin_2a (2 * (PI / 3))), C23, S23. fold C Sn.
    replace (sqrt 3 / 2 * (sqrt 3 / 2)) with (3 / 4) by nra. field. }
  assert (T3 : 4 * C ^ 3 - 3 * C = q).
  { rewrite <- K. replace th with (2 * (th / 3) + th / 3) by field. rewrite cos_plus, cos_2a, sin_2a. fold C Sn.
    replace (Sn * Sn) with (1 - C * C) by lra. replace (2 * Sn * C * Sn) with (2 * (Sn * Sn) * C) by ring. replace (Sn * Sn) with (1 - C * C) by lra. ring. }
  rewrite C2, C3.
  destruct (finish3 (2 * s * C) (2 * s * (- C / 2 - sqrt 3 / 2 * Sn)) (2 * s * (- C / 2 + sqrt 3 / 2 * Sn))) as (x1 & x2 & x3 & E & R3).
  - field.
  - replace (2 * s * C * (2 * s * (- C / 2 - sqrt 3 / 2 * Sn)) + 2 * s * (- C / 2 - sqrt 3 / 2 * Sn) * (2 * s * (- C / 2 + sqrt 3 / 2 * Sn)) +
      2 * s * C * (2 * s * (- C / 2 + sqrt 3 / 2 * Sn))) with ((s * s) * (- 3 * (C * C) - (sqrt 3 * sqrt 3) * (Sn * Sn))) by field.
    rewrite S2, S33. replace (Sn * Sn) with (1 - C * C) by lra. ring.
  - replace (2 * s * C * (2 * s * (- C / 2 - sqrt 3 / 2 * Sn)) * (2 * s * (- C / 2 + sqrt 3 / 2 * Sn))) with
      (2 * s ^ 3 * (C * (C * C - (sqrt 3 * sqrt 3) * (Sn * Sn)))) by field.
    rewrite S33. replace (Sn * Sn) with (1 - C * C) by lra.
    replace (C * (C * C - 3 * (1 - C * C))) with (4 * C ^ 3 - 3 * C) by ring. rewrite T3. unfold q. field. lra.
  - exists x1, x2, x3. split; [now rewrite E|auto].
Qed.

Lemma degenerate : - CEPS <= h * h + t ^ 3 <= CEPS ->
  exists x1 x2 x3, solve_cubic a b c d = Ok [x1; x2; x3] /\ x1 <= x2 <= x3 /\
    (forall x, In x [x1; x2; x3] ->
       (Rabs h < CEPS /\ Rabs (cubic a b c d x) <= 2 * CEPS * Rabs a) \/
       (CEPS <= Rabs h /\ Rabs (cubic a b c d x) * Rabs h <= 8 * CEPS * Rabs a)) /\
    (h * h + t ^ 3 = 0 -> h = 0 \/ CEPS <= Rabs h ->
      forall z, cubic a b c d z = a * ((z - x1) * (z - x2) * (z - x3))).
Proof.
  intros Hd. rewrite unfold_solve. pose proof CEPS_pos.
  destruct (Rltb_spec CEPS (h * h + t ^ 3)); [lra|]. destruct (Rltb_spec (h * h + t ^ 3) (- CEPS)); [lra|].
  destruct (Rltb_spec (Rabs h) CEPS) as [L|L]; cbn [map].
  - destruct (sort3 (0 - p / 3) (0 - p / 3) (0 - p / 3)) as (x1 & x2 & x3 & E & Lx & F).
    exists x1, x2, x3. rewrite E. splits; auto; try lra.
    + intros x Hx. left. split; auto.
      assert (Px : In x [0 - p / 3; 0 - p / 3; 0 - p / 3]) by (eapply Permutation_in; [apply sort_perm|]; rewrite E; auto).
      assert (x = 0 - p / 3) as -> by (cbn in Px; tauto || (destruct Px as [<-|[<-|[<-|[]]]]; auto)).
      rewrite depressed. replace (0 ^ 3 + 3 * t * 0 + 2 * h) with (2 * h) by ring. rewrite !Rabs_mult, (Rabs_pos_eq 2) by lra.
      pose proof (Rabs_pos a). pose proof (Rabs_pos h). nra.
    + intros Z [Z0|Z0] z; [|lra]. rewrite F. apply three_factors; rewrite ?Z0 in *; try ring.
      assert (t ^ 3 = 0) by lra. assert (t = 0) as -> by (apply cube_inj; lra). ring.
  - set (u := cbrt (- h)). assert (U : u ^ 3 = - h) by apply cbrt_cube.
    destruct (sort3 (2 * u - p / 3) (- u - p / 3) (- u - p / 3)) as (x1 & x2 & x3 & E & Lx & F).
    exists x1, x2, x3. rewrite E. splits; auto; try lra.
    + intros x Hx. right. split; auto.
      assert (Px : In x [2 * u - p / 3; - u - p / 3; - u - p / 3]) by (eapply Permutation_in; [apply sort_perm|]; rewrite E; auto).
      set (g := u * u + t).
      assert (Cx : exists k, cubic a b c d x = a * (k * u * g) /\ Rabs k <= 6).
      { destruct Px as [<-|[<-|[<-|[]]]]; rewrite depressed; replace h with (- u ^ 3) by lra.
        - exists 6. split; [unfold g; ring|]. rewrite Rabs_pos_eq; lra.
        - exists (-3). split; [unfold g; ring|]. rewrite Rabs_left; lra.
        - exists (-3). split; [unfold g; ring|]. rewrite Rabs_left; lra. }
      destruct Cx as (k & -> & Hk).
      assert (G : Rabs g * (3 / 4 * (u * u) * (u * u)) <= CEPS).
      { assert (Q : g * (u ^ 4 - u * u * t + t * t) = h * h + t ^ 3) by (replace h with (- u ^ 3) by lra; unfold g; ring).
        assert (Q2 : 3 / 4 * (u * u) * (u * u) <= u ^ 4 - u * u * t + t * t) by (pose proof (pow2_ge_0 (u * u / 2 - t)); nra).
        assert (Q3 : 0 <= 3 / 4 * (u * u) * (u * u)) by (assert (0 <= u * u) by nra; nra).
        apply Rle_trans with (Rabs g * (u ^ 4 - u * u * t + t * t)); [pose proof (Rabs_pos g); nra|].
        replace (Rabs g * (u ^ 4 - u * u * t + t * t)) with (Rabs (g * (u ^ 4 - u * u * t + t * t))).
        - rewrite Q. apply Rabs_le. lra.
        - rewrite Rabs_mult, (Rabs_pos_eq (u ^ 4 - u * u * t + t * t)); lra. }
      replace (Rabs h) with (Rabs u ^ 3).
      2: { replace h with (- u ^ 3) by lra. rewrite Rabs_Ropp, RPow_abs. reflexivity. }
      rewrite !Rabs_mult. set (A := Rabs a) in *. set (B := Rabs u) in *. set (G0 := Rabs g) in *. set (K := Rabs k) in *.
      assert (BB : u * u = B * B) by (unfold B; rewrite <- Rabs_mult, Rabs_pos_eq; nra). rewrite BB in G.
      assert (0 <= A) by apply Rabs_pos. assert (0 <= B) by apply Rabs_pos. assert (0 <= G0) by apply Rabs_pos. assert (0 <= K) by apply Rabs_pos.
      assert (X : 0 <= G0 * (B * B * (B * B))) by (apply Rmult_le_pos; [auto|]; assert (0 <= B * B) by nra; nra).
      assert (G2 : G0 * (B * B * (B * B)) <= 4 / 3 * CEPS) by lra.
      replace (A * (K * B * G0) * B ^ 3) with (A * (K * (G0 * (B * B * (B * B))))) by ring.
      assert (K * (G0 * (B * B * (B * B))) <= 8 * CEPS) by nra. nra.
    + intros Z _ z. rewrite F. apply three_factors; try ring.
      * assert (g : u * u = - t). { apply cube_inj. replace ((u * u) ^ 3) with (u ^ 3 * u ^ 3) by ring. rewrite U. lra. }
        replace (2 * u * - u + - u * - u + 2 * u * - u) with (-3 * (u * u)) by ring. rewrite g. ring.
      * replace (2 * u * - u * - u) with (2 * u ^ 3) by ring. rewrite U. ring.
Qed.
End Cubic.

(** C31: away from a vanishing discriminant, a single root is returned exactly
    when there is only one real root (and it is that one), and three roots are
    returned, in increasing order, exactly when the polynomial factors into
    them. *)
Theorem C31_roots a b c d :
  CEPS <= Rabs a ->
  (discriminant a b c d < - 108 * CEPS * a ^ 4 ->
     exists x, solve_cubic a b c d = Ok [x] /\ cubic a b c d x = 0 /\ forall z, cubic a b c d z = 0 -> z = x) /\
  (108 * CEPS * a ^ 4 < discriminant a b c d ->
     exists x1 x2 x3, solve_cubic a b c d = Ok [x1; x2; x3] /\ x1 < x2 < x3 /\
       forall z, cubic a b c d z = a * ((z - x1) * (z - x2) * (z - x3))).
Proof.
  intros Ha. pose proof (a4_pos a Ha) as A4. pose proof (delta_eq a b c d Ha) as De. pose proof CEPS_pos.
  set (D := discriminant a b c d) in *.
  assert (K : - D / (108 * a ^ 4) * (108 * a ^ 4) = - D) by (field; intros Z; rewrite Z in A4; lra).
  split; intros HD.
  - apply one_root; auto. rewrite De. apply Rmult_lt_reg_r with (108 * a ^ 4); [lra|]. rewrite K. lra.
  - destruct (three_roots a b c d Ha) as (x1 & x2 & x3 & E & L & F).
    { rewrite De. apply Rmult_lt_reg_r with (108 * a ^ 4); [lra|]. rewrite K. lra. }
    exists x1, x2, x3. splits; auto; pose proof (discriminant_factors _ _ _ _ _ _ _ F) as DF; fold D in DF.
    + destruct (Req_dec x1 x2) as [->|]; [|lra]. exfalso. replace ((x2 - x2) * (x2 - x3) * (x2 - x3)) with 0 in DF by ring. nra.
    + destruct (Req_dec x2 x3) as [->|]; [|lra]. exfalso. replace ((x1 - x3) * (x3 - x3) * (x1 - x3)) with 0 in DF by ring. nra.
Qed.
Print Assumptions C31_roots.

(** C31, vanishing discriminant: repeated roots are returned with their
    multiplicity (unless the shifted constant term is below the tolerance but
    not zero); in a band around it the residual is bounded.  [h] is half the
    constant term of the depressed polynomial. *)
Theorem C31_degenerate a b c d :
  CEPS <= Rabs a ->
  let h := (d / a - (b / a) * (c / a) / 3 + 2 * (b / a) ^ 3 / 27) / 2 in
  Rabs (discriminant a b c d) <= 108 * CEPS * a ^ 4 ->
  exists x1 x2 x3, solve_cubic a b c d = Ok [x1; x2; x3] /\ x1 <= x2 <= x3 /\
    (discriminant a b c d = 0 -> h = 0 \/ CEPS <= Rabs h ->
       forall z, cubic a b c d z = a * ((z - x1) * (z - x2) * (z - x3))) /\
    (forall x, In x [x1; x2; x3] ->
       (Rabs h < CEPS /\ Rabs (cubic a b c d x) <= 2 * CEPS * Rabs a) \/
       (CEPS <= Rabs h /\ Rabs (cubic a b c d x) * Rabs h <= 8 * CEPS * Rabs a)).
Proof.
  intros Ha h HD. pose proof (a4_pos a Ha) as A4. pose proof (delta_eq a b c d Ha) as De. pose proof CEPS_pos.
  pose proof (degenerate a b c d Ha) as Dg.
  set (D := discriminant a b c d) in *.
  assert (K : - D / (108 * a ^ 4) * (108 * a ^ 4) = - D) by (field; intros Z; rewrite Z in A4; lra).
  assert (HD2 : - (108 * CEPS * a ^ 4) <= D <= 108 * CEPS * a ^ 4) by (revert HD; unfold Rabs; destruct (Rcase_abs D); lra).
  replace (2 * (b / a) * (b / a * (b / a))) with (2 * (b / a) ^ 3) in * by ring.
  fold h in Dg, De. rewrite De in Dg.
  destruct Dg as (x1 & x2 & x3 & E & L & R1 & R2).
  { split; apply Rmult_le_reg_r with (108 * a ^ 4); try lra; rewrite K; lra. }
  exists x1, x2, x3. splits; auto; try lra. intros Z. apply R2. rewrite Z. field. intros Z2; rewrite Z2 in A4; lra.
Qed.
Print Assumptions C31_degenerate.

(** C31: the only error is a (nearly) vanishing leading coefficient *)
Theorem C31_leading a b c d :
  (Rabs a < CEPS <-> exists e, solve_cubic a b c d = Err e) /\ solve_cubic a b c d <> Panic.
Proof.
  unfold solve_cubic. destruct (Rltb_spec (Rabs a) CEPS) as [L|L].
  - split; [split; eauto|discriminate].
  - split; [split; [lra|intros [e He]; discriminate]|discriminate].
Qed.
Print Assumptions C31_leading.

Example C31_ex : exists x1 x2 x3, solve_cubic 1 (-6) 11 (-6) = Ok [x1; x2; x3] /\ x1 < x2 < x3 /\ (x1 - 1) * (x1 - 2) * (x1 - 3) = 0.
Proof.
  destruct (C31_roots 1 (-6) 11 (-6)) as [_ H]; [unfold CEPS; rewrite Rabs_R1; lra|].
  destruct H as (x1 & x2 & x3 & E & L & F); [unfold CEPS, discriminant; lra|].
  exists x1, x2, x3. splits; auto; try lra. pose proof (F x1) as F1. unfold cubic in F1.
  replace (1 * ((x1 - x1) * (x1 - x2) * (x1 - x3))) with 0 in F1 by ring. lra.
Qed.

(** C31, refuted part: the tolerance on the discriminant is absolute, so the
    three distinct roots -0.001, 0, 0.001 of x^3 - 1e-6 x are returned as a
    triple root 0. *)
Theorem C31_small_roots_refuted :
  solve_cubic 1 0 (-1e-6) 0 = Ok [0; 0; 0] /\ cubic 1 0 (-1e-6) 0 1e-3 = 0.
Proof.
  split; [|unfold cubic; lra]. unfold solve_cubic, CEPS. rewrite Rabs_R1.
  destruct (Rltb_spec 1 1e-12); [lra|].
  match goal with |- context [Rltb 1e-12 ?D] => destruct (Rltb_spec 1e-12 D) as [|_]; [lra|]; destruct (Rltb_spec D (- (1e-12))) as [|_]; [lra|] end.
  match goal with |- context [Rltb (Rabs ?D) 1e-12] => destruct (Rltb_spec (Rabs D) 1e-12) as [_|L]; [|exfalso] end.
  - cbn [map]. replace (0 - 0 / 1 / 3) with 0 by field. unfold sort_reals. cbn [fold_right insert_sorted].
    destruct (Rleb_spec 0 0); [|lra]. cbn [insert_sorted]. destruct (Rleb_spec 0 0); [|lra]. reflexivity.
  - revert L. rewrite Rabs_right; lra.
Qed.
Print Assumptions C31_small_roots_refuted.
