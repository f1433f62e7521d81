(** Exactness of one step of the explicit Runge-Kutta methods on model problems (C51). *)
From Coq Require Import Qreals Qabs Lra.
From Coquelicot Require Import Coquelicot.
From Verif Require Import Erk_Model Ode_Base_Thm Ode_Drv_Thm Erk_Tab_Thm Erk_Thm.
Local Open Scope nat_scope.

(** * Sums *)
Lemma rsum_swap n m (g : nat -> nat -> R) : rsum n (fun i => rsum m (g i)) = rsum m (fun j => rsum n (fun i => g i j)).
Proof.
  induction n as [|n IH]; cbn [rsum].
  - induction m as [|m IH]; cbn [rsum]; [reflexivity|]. rewrite <- IH. lra.
  - rewrite IH. clear IH. induction m as [|m IH]; cbn [rsum]; [lra|]. rewrite <- IH. lra.
Qed.
Lemma rsum_shift n (g : nat -> R) : rsum (S n) g = (g 0%nat + rsum n (fun i => g (S i)))%R.
Proof. induction n as [|n IH]; [cbn; lra|]. change (rsum (S (S n)) g) with (rsum (S n) g + g (S n))%R. rewrite IH. cbn [rsum]. lra. Qed.
Lemma rsum_zero n (g : nat -> R) : (forall i, i < n -> g i = 0%R) -> rsum n g = 0%R.
Proof. induction n as [|n IH]; intros H; [reflexivity|]. cbn. rewrite IH, H by (intros; try apply H; lia). lra. Qed.
Lemma rsum_more n m (g : nat -> R) : n <= m -> (forall i, n <= i < m -> g i = 0%R) -> rsum m g = rsum n g.
Proof.
  intros L. induction m as [|m IH]; intros H; [now replace n with 0 by lia|].
  destruct (Nat.eq_dec n (S m)) as [->|N]; [reflexivity|]. cbn [rsum]. rewrite IH, H by (intros; try apply H; lia). lra.
Qed.
Lemma dot_rsum_gen (g : nat -> Q) : forall (l : list Q) (k n : nat), length l <= n ->
  Q2R (dotq l (map g (seq k n))) = rsum (length l) (fun i => Q2R (nth i l 0%Q) * Q2R (g (k + i)%nat))%R.
Proof.
  intros l. induction l as [|a l IH]; intros k n Hn; [destruct n; cbn; unfold Q2R; cbn; lra|].
  destruct n as [|n]; cbn in Hn; [lia|]. cbn [length]. rewrite rsum_shift. cbn [seq map]. unfold dotq, qsum. cbn [combine map fold_right fst snd nth].
  rewrite Q2R_plus, Q2R_mult. change (fold_right Qplus 0%Q (map (fun p => (fst p * snd p)%Q) (combine l (map g (seq (S k) n))))) with (dotq l (map g (seq (S k) n))).
  rewrite (IH (S k) n ltac:(lia)), Nat.add_0_r. f_equal. apply rsum_ext. intros i _. now rewrite Nat.add_succ_r.
Qed.

(** * y' = lambda y *)

(** the tall tree with q + 1 vertices *)
Fixpoint tall (q : nat) : tree := match q with 0 => Node [] | S q => Node [tall q] end.
Lemma tall_order q : order (tall q) = S q.
Proof. induction q as [|q IH]; [reflexivity|]. cbn [tall]. change (order (Node [tall q])) with (S (order (tall q) + 0)). rewrite IH. lia. Qed.
Lemma tall_density q : density (tall q) = Z.of_nat (fact (S q)).
Proof.
  induction q as [|q IH]; [reflexivity|]. change (density (tall (S q))) with (Z.of_nat (order (tall (S q))) * (density (tall q) * 1))%Z.
  rewrite IH, tall_order. change (fact (S (S q))) with (S (S q) * fact (S q)). lia.
Qed.

Section Linear.
Variables (A : list (list Q)) (b : list Q).
Hypothesis ROWS : forall i, i < length A -> length (nth i A []) <= length A.
Hypothesis LOWER : strictly_lower A.
Hypothesis LB : length b = length A.

(** the coefficient of z^q in stage i over lambda y *)
Definition sw (q i : nat) : R := Q2R (stage_weight A (tall q) i).
Lemma sw_0 i : sw 0 i = 1%R.
Proof. unfold sw. cbn. unfold Q2R. cbn. lra. Qed.
Lemma aij_zero i j : i < length A -> i <= j -> nth j (nth i (Rmat A) []) 0%R = 0%R.
Proof. intros Hi Hj. rewrite Rmat_nth, Rrow_nth. rewrite (Qeq_eqR _ _ (LOWER i j Hi Hj)). unfold Q2R; cbn; lra. Qed.
Lemma sw_S q i : i < length A -> sw (S q) i = rsum i (fun j => nth j (nth i (Rmat A) []) 0 * sw q j)%R.
Proof.
  intros Hi. unfold sw at 1. cbn [tall stage_weight fold_right]. rewrite Q2R_mult. replace (Q2R 1) with 1%R by (unfold Q2R; cbn; lra). rewrite Rmult_1_r.
  rewrite dot_rsum_gen by (apply ROWS; exact Hi). set (L := length (nth i A [])).
  transitivity (rsum (length A) (fun j => nth j (nth i (Rmat A) []) 0 * sw q j)%R).
  - rewrite (rsum_more L (length A)).
    + apply rsum_ext. intros j _. now rewrite Rmat_nth, Rrow_nth, Nat.add_0_l.
    + apply ROWS; exact Hi.
    + intros j Hj. rewrite Rmat_nth, Rrow_nth, nth_overflow by (unfold L in Hj; lia). unfold Q2R; cbn; lra.
  - apply rsum_more; [lia|]. intros j Hj. rewrite aij_zero by lia. lra.
Qed.
Lemma sw_vanish q i : i < length A -> i < q -> sw q i = 0%R.
Proof.
  revert i. induction q as [|q IH]; intros i Hi Hq; [lia|]. rewrite sw_S by exact Hi. apply rsum_zero. intros j Hj. rewrite (IH j) by lia. lra.
Qed.

Lemma linear_stages lam x y h k c : is_stages (fun _ z => Ok (map (Rmult lam) z)) (Rmat A) c x y h k ->
  forall m, m < length y -> forall i, i < length A ->
  nth m (nth i k []) 0%R = (lam * nth m y 0 * rsum (length A) (fun q => sw q i * (lam * h) ^ q))%R.
Proof.
  intros (Lk & ST) m Hm. replace (length (Rmat A)) with (length A) in * by (unfold Rmat; now rewrite map_length).
  intros i. induction i as [i IH] using lt_wf_ind. intros Hi. specialize (ST i Hi). injection ST as ST. rewrite <- ST. unfold stage_point.
  rewrite map_map. rewrite nth_tabmap by exact Hm.
  rewrite (rsum_ext i _ (fun j => nth j (nth i (Rmat A) []) 0 * (lam * nth m y 0 * rsum (length A) (fun q => sw q j * (lam * h) ^ q)))%R) by (intros j Hj; rewrite IH by lia; reflexivity).
  assert (E : rsum i (fun j => nth j (nth i (Rmat A) []) 0 * (lam * nth m y 0 * rsum (length A) (fun q => sw q j * (lam * h) ^ q)))%R =
    (lam * nth m y 0 * rsum (length A) (fun q => sw (S q) i * (lam * h) ^ q))%R).
  { rewrite (rsum_ext i _ (fun j => lam * nth m y 0 * rsum (length A) (fun q => nth j (nth i (Rmat A) []) 0 * sw q j * (lam * h) ^ q))%R).
    - rewrite rsum_mul, rsum_swap. f_equal. apply rsum_ext. intros q _. rewrite sw_S by exact Hi.
      rewrite <- (Rmult_comm ((lam * h) ^ q)), <- rsum_mul. apply rsum_ext. intros j _. ring.
    - intros j _. rewrite (rsum_ext _ (fun q => nth j (nth i (Rmat A) []) 0 * sw q j * (lam * h) ^ q)%R (fun q => nth j (nth i (Rmat A) []) 0 * (sw q j * (lam * h) ^ q))%R) by (intros q _; ring).
      rewrite rsum_mul. ring. }
  rewrite E. clear E IH ST.
  assert (E2 : rsum (length A) (fun q => sw q i * (lam * h) ^ q)%R = (1 + lam * h * rsum (length A) (fun q => sw (S q) i * (lam * h) ^ q))%R).
  { pose proof (rsum_shift (length A) (fun q => sw q i * (lam * h) ^ q)%R) as SH. cbn [rsum] in SH. rewrite (sw_vanish (length A) i Hi Hi), sw_0 in SH.
    rewrite <- rsum_mul. rewrite (rsum_ext _ (fun q => lam * h * (sw (S q) i * (lam * h) ^ q))%R (fun q => sw (S q) i * (lam * h) ^ S q)%R) by (intros q _; cbn; ring).
    cbn [pow] in *. lra. }
  rewrite E2. ring.
Qed.

(** the coefficients of the stability function *)
Definition stab (q : nat) : R := match q with 0 => 1%R | S q => Q2R (weight A b (tall q)) end.

Lemma stab_S q : stab (S q) = rsum (length b) (fun i => nth i (Rrow b) 0 * sw q i)%R.
Proof.
  cbn [stab]. unfold weight. rewrite dot_rsum_gen by lia. apply rsum_ext. intros i _. now rewrite Rrow_nth, Nat.add_0_l.
Qed.

Lemma linear_solution lam x y h k c : is_stages (fun _ z => Ok (map (Rmult lam) z)) (Rmat A) c x y h k ->
  forall m, m < length y -> nth m (new_solution (Rrow b) y h k) 0%R = (nth m y 0 * rsum (S (length b)) (fun q => stab q * (lam * h) ^ q))%R.
Proof.
  intros ST m Hm. unfold new_solution, comb. rewrite nth_tabmap by exact Hm. replace (length (Rrow b)) with (length b) by (unfold Rrow; now rewrite map_length).
  rewrite (rsum_ext (length b) _ (fun i => nth i (Rrow b) 0 * (lam * nth m y 0 * rsum (length A) (fun q => sw q i * (lam * h) ^ q)))%R)
    by (intros i Hi; rewrite (linear_stages _ _ _ _ _ _ ST m Hm i) by lia; reflexivity).
  rewrite rsum_shift. cbn [stab pow]. rewrite (rsum_ext (length b) (fun i => stab (S i) * _)%R (fun q => rsum (length b) (fun i => lam * h * (nth i (Rrow b) 0 * (sw q i * (lam * h) ^ q))))%R).
  - rewrite rsum_swap, Rmult_plus_distr_l, <- !rsum_mul, <- LB. f_equal; [lra|]. apply rsum_ext. intros i _.
    rewrite <- !rsum_mul. apply rsum_ext. intros q _. ring.
  - intros q _. rewrite stab_S. rewrite <- (Rmult_comm (lam * h * (lam * h) ^ q)), <- rsum_mul. apply rsum_ext. intros i _. ring.
Qed.
End Linear.

Lemma factR q : IZR (Z.of_nat (fact q)) = INR (fact q).
Proof. symmetry. apply INR_IZR_INZ. Qed.
Lemma weightR q : Q2R (1 / inject_Z (density (tall q))) = (1 / INR (fact (S q)))%R.
Proof.
  rewrite tall_density. unfold Qdiv. rewrite Q2R_mult, Q2R_inv; [|intros H; unfold Qeq in H; cbn [Qnum Qden inject_Z] in H; pose proof (lt_O_fact (S q)); lia].
  replace (Q2R 1) with 1%R by (unfold Q2R; cbn; lra). unfold Rdiv. f_equal. f_equal. rewrite <- factR. unfold Q2R, inject_Z. cbn [Qnum Qden]. lra.
Qed.

(** One step on y' = lambda y multiplies y by a polynomial R(lambda h) that depends on the method only and whose
    coefficients up to the order of the method are those of the exponential (DoPri8, whose tables are decimals: to 10^-28) *)
Theorem C51_linear : forall meth A b c, erk_tableau meth = Some (A, b, c) -> exists r : nat -> R,
  (forall q, q <= i_order (method_information meth) -> if method_eqb meth DoPri8 then (Rabs (r q - 1 / INR (fact q)) <= 1 / 10 ^ 28)%R else r q = (1 / INR (fact q))%R) /\
  forall ndim lam s ee w x y h s' w', erk_wf ndim s A b c ee -> length y = ndim ->
    (needs_k0 s w = false -> Ok (map (Rmult lam) y) = Ok (nth 0 (e_k s) [])) ->
    erk_step ndim (fun _ z => Ok (map (Rmult lam) z)) s w x y h = Ok (s', w') ->
    forall m, m < ndim -> nth m (e_w s') 0%R = (nth m y 0 * rsum (S (length b)) (fun q => r q * (lam * h) ^ q))%R.
Proof.
  intros meth A b c E. destruct (C49_structure _ _ _ _ E) as (LB & LC & ROWS & LOWER & _). exists (stab A b). split.
  - intros q Hq. destruct q as [|q].
    + cbn [stab fact INR]. destruct (method_eqb meth DoPri8); [|lra]. replace (1 - 1 / 1)%R with 0%R by lra. rewrite Rabs_R0.
      apply Rlt_le, Rdiv_lt_0_compat; [lra|apply pow_lt; lra].
    + cbn [stab]. rewrite <- weightR. destruct (method_eqb meth DoPri8) eqn:EM.
      * apply method_eqb_eq in EM as ->. pose proof (C49_order_dopri8 _ _ _ E (tall q) ltac:(rewrite tall_order; exact Hq)) as H.
        apply Qabs_Qle_condition in H as (H1 & H2). apply Qle_Rle in H1, H2. rewrite Q2R_minus in H1, H2. rewrite Q2R_opp in H1.
        assert (V : Q2R (1 / inject_Z (10 ^ 28)) = (1 / 10 ^ 28)%R).
        { unfold Qdiv. rewrite Q2R_mult, Q2R_inv by (intros K; discriminate K). replace (Q2R 1) with 1%R by (unfold Q2R; cbn; lra).
          unfold Q2R, inject_Z. cbn [Qnum Qden]. replace (IZR (10 ^ 28)) with (10 ^ 28)%R by (rewrite (pow_IZR 10 28); reflexivity). field. }
        rewrite V in *. apply Rabs_le. lra.
      * apply Qeq_eqR. apply (proj1 (C49_order _ _ _ _ E ltac:(intros ->; discriminate))). rewrite tall_order. exact Hq.
  - intros ndim lam s ee w x y h s' w' WF LY HK ES m Hm.
    destruct (C50_step ndim (fun _ z => Ok (map (Rmult lam) z)) ltac:(intros ? z k Hz Hk; injection Hk as <-; now rewrite map_length) _ _ _ _ _ _ _ _ _ _ _ WF LY HK ES) as (_ & _ & ST & -> & _).
    apply (linear_solution A b) with (x := x) (c := Rrow c); auto; [|lia]. intros i Hi. destruct (ROWS i Hi); lia.
Qed.

(** * y' = p(x) *)

(** the polynomial a_0 + a_1 t + a_2 t^2 + ... *)
Fixpoint peval (a : list R) (t : R) : R := match a with [] => 0%R | c :: a => (c + t * peval a t)%R end.

Lemma peval_rsum a t : peval a t = rsum (length a) (fun j => nth j a 0 * t ^ j)%R.
Proof.
  induction a as [|c a IH]; [reflexivity|]. cbn [peval length]. rewrite rsum_shift, IH, <- rsum_mul. cbn [nth pow]. f_equal; [lra|].
  apply rsum_ext. intros j _. ring.
Qed.

(** sum of two polynomials, the first at least as long *)
Fixpoint padd (a b : list R) : list R := match a, b with [], _ => [] | a, [] => a | x :: a, y :: b => (x + y)%R :: padd a b end.
Lemma padd_eval a b t : length b <= length a -> peval (padd a b) t = (peval a t + peval b t)%R.
Proof. revert b. induction a as [|x a IH]; intros [|y b] H; cbn in *; try lra; try lia. rewrite IH by lia. ring. Qed.
Lemma padd_length a b : length (padd a b) = length a.
Proof. revert b. induction a as [|x a IH]; intros [|y b]; cbn; auto. Qed.
Lemma pscale_eval v a t : peval (map (Rmult v) a) t = (v * peval a t)%R.
Proof. induction a as [|c a IH]; cbn; [lra|]. rewrite IH. ring. Qed.

Lemma pshift a x : exists a', length a' = length a /\ forall t, peval a (x + t) = peval a' t.
Proof.
  induction a as [|c a (a' & L & IH)]; [exists []; split; reflexivity|].
  exists (padd (c :: a') (map (Rmult x) a')). split; [rewrite padd_length; cbn; now rewrite L|].
  intros t. rewrite padd_eval by (rewrite map_length; cbn; lia). rewrite pscale_eval. cbn [peval]. rewrite IH. ring.
Qed.

(** the antiderivative with value 0 at 0 *)
Definition pint (a : list R) (t : R) : R := rsum (length a) (fun j => nth j a 0 * (t ^ S j / INR (S j)))%R.
Lemma pint_derive a t : is_derive (pint a) t (peval a t).
Proof.
  rewrite peval_rsum. unfold pint. generalize (length a). intros n. induction n as [|n IH]; cbn [rsum].
  - apply (is_derive_const (K := R_AbsRing) (V := R_NormedModule)).
  - apply (is_derive_plus (V := R_NormedModule)); [exact IH|]. clear IH.
    auto_derive; [exact I|]. replace (Nat.pred (S n)) with n by reflexivity.
    assert (INR (S n) <> 0%R) by (apply not_0_INR; lia). change (match n with 0 => 1 | S _ => INR n + 1 end)%R with (INR (S n)). field. auto.
Qed.

Lemma same_increment (Q1 Q2 p : R -> R) x h : (forall u, is_derive Q1 u (p u)) -> (forall t, is_derive Q2 t (p (x + t)%R)) -> (Q1 (x + h) - Q1 x)%R = (Q2 h - Q2 0)%R.
Proof.
  intros H1 H2. set (D := fun t => (Q1 (x + t) - Q2 t)%R).
  assert (HD : forall t, is_derive D t zero).
  { intros t. unfold D. evar_last.
    - apply (is_derive_minus (V := R_NormedModule) (fun t => Q1 (x + t)%R) Q2); [|apply H2].
      apply (is_derive_comp (V := R_NormedModule) Q1 (fun t => x + t)%R); [apply H1|].
      apply (is_derive_plus (V := R_NormedModule) (fun _ => x) (fun t => t)); [apply (is_derive_const (K := R_AbsRing) (V := R_NormedModule))|apply is_derive_id].
    - cbn. unfold zero, one, minus, plus, opp, scal, mult. cbn. unfold mult. cbn. ring. }
  assert (E : D h = D 0%R).
  { destruct (Rtotal_order h 0) as [L|[->|L]]; [apply eq_is_derive; auto|reflexivity|symmetry; apply eq_is_derive; auto]. }
  unfold D in E. rewrite Rplus_0_r in E. lra.
Qed.

(** the quadrature conditions  sum_i b_i c_i^j = 1/(j+1)  up to 1/K, decided in integers with common denominator D *)
Definition fits (D : BinNums.positive) (q : Q) : bool := Z.eqb (toZ D q * Zpos (Qden q)) (Qnum q * Zpos D).
Lemma toZ_R D q : fits D q = true -> IZR (toZ D q) = (Q2R q * IZR (Zpos D))%R.
Proof.
  unfold fits. intros H. apply Z.eqb_eq in H. apply (f_equal IZR) in H. rewrite !mult_IZR in H. unfold Q2R.
  assert (IZR (Zpos (Qden q)) <> 0%R) by (apply not_0_IZR; discriminate). apply (Rmult_eq_reg_r (IZR (Zpos (Qden q)))); [|assumption].
  rewrite H. field. assumption.
Qed.
Definition zmoment (D : BinNums.positive) (b c : list Q) (j : nat) : Z :=
  fold_left (fun s i => (s + toZ D (nth i b 0%Q) * toZ D (nth i c 0%Q) ^ Z.of_nat j)%Z) (seq 0 (length b)) 0%Z.
Definition moments_ok (D : BinNums.positive) (K : Z) (b c : list Q) (n : nat) : bool :=
  (forallb (fits D) b && forallb (fits D) c && (length c =? length b) &&
   forallb (fun j => let p := (Zpos D ^ Z.of_nat (S j))%Z in let g := Z.of_nat (S j) in
     let e := (g * zmoment D b c j - p)%Z in if Z.eqb K 0 then Z.eqb e 0 else Z.leb (Z.abs e * K) (p * g)) (seq 0 n))%bool.
Lemma zmoment_R D b c j : forallb (fits D) b = true -> forallb (fits D) c = true -> length c = length b ->
  IZR (zmoment D b c j) = (rsum (length b) (fun i => nth i (Rrow b) 0 * nth i (Rrow c) 0 ^ j) * IZR (Zpos D) ^ S j)%R.
Proof.
  intros Hb Hc L. rewrite forallb_forall in Hb, Hc. unfold zmoment.
  assert (FB : forall i, i < length b -> fits D (nth i b 0%Q) = true) by (intros; apply Hb, nth_In; lia).
  assert (FC : forall i, i < length b -> fits D (nth i c 0%Q) = true) by (intros; apply Hc, nth_In; lia).
  clear Hb Hc L. induction (length b) as [|n IH]; [cbn; lra|].
  rewrite seq_S, fold_left_app. cbn [fold_left plus rsum]. rewrite plus_IZR, mult_IZR, IH by (intros; try apply FB; try apply FC; lia).
  rewrite toZ_R by (apply FB; lia). rewrite <- pow_IZR, toZ_R by (apply FC; lia). rewrite !Rrow_nth, Rpow_mult_distr. rewrite Nat.add_0_l. cbn [pow]. ring.
Qed.
Lemma moments_R D K b c n : (0 <= K)%Z -> moments_ok D K b c n = true -> forall j, j < n ->
  (Rabs (rsum (length b) (fun i => nth i (Rrow b) 0 * nth i (Rrow c) 0 ^ j) - 1 / INR (S j)) <= if Z.eqb K 0 then 0 else 1 / IZR K)%R.
Proof.
  intros HK H j Hj. unfold moments_ok in H. apply andb_true_iff in H as (H & HJ). apply andb_true_iff in H as (H & HL). apply andb_true_iff in H as (Hb & Hc).
  apply Nat.eqb_eq in HL. rewrite forallb_forall in HJ. specialize (HJ j ltac:(apply in_seq; lia)). cbv zeta in HJ.
  pose proof (zmoment_R D b c j Hb Hc HL) as M. set (S0 := rsum (length b) _) in *. clearbody S0. clear Hb Hc HL.
  assert (DP : (0 < IZR (Zpos D) ^ S j)%R) by (apply pow_lt, IZR_lt; lia).
  assert (PZ : IZR (Zpos D ^ Z.of_nat (S j)) = (IZR (Zpos D) ^ S j)%R) by (symmetry; apply pow_IZR).
  set (p := (Zpos D ^ Z.of_nat (S j))%Z) in *. clearbody p. set (P := (IZR (Zpos D) ^ S j)%R) in *. clearbody P.
  assert (GP : (0 < INR (S j))%R) by (apply lt_0_INR; lia). assert (GZ : IZR (Z.of_nat (S j)) = INR (S j)) by (symmetry; apply INR_IZR_INZ).
  set (g := Z.of_nat (S j)) in *. clearbody g. set (G := INR (S j)) in *. clearbody G.
  assert (E : (S0 - 1 / G)%R = (IZR (g * zmoment D b c j - p) / (P * G))%R) by (rewrite minus_IZR, mult_IZR, M, PZ, GZ; field; split; lra).
  rewrite E. clear E. assert (PG : (0 < P * G)%R) by (apply Rmult_lt_0_compat; assumption).
  destruct (Z.eqb_spec K 0) as [->|NK].
  - apply Z.eqb_eq in HJ. rewrite HJ. unfold Rdiv. rewrite Rmult_0_l, Rabs_R0. lra.
  - apply Z.leb_le, IZR_le in HJ. rewrite !mult_IZR, abs_IZR, PZ, GZ in HJ. unfold Rdiv. rewrite Rabs_mult, (Rabs_pos_eq (/ (P * G))) by (apply Rlt_le, Rinv_0_lt_compat; assumption).
    assert (0 < IZR K)%R by (apply IZR_lt; lia). apply (Rmult_le_reg_r (P * G * IZR K)); [apply Rmult_lt_0_compat; assumption|].
    replace (Rabs (IZR (g * zmoment D b c j - p)) * / (P * G) * (P * G * IZR K))%R with (Rabs (IZR (g * zmoment D b c j - p)) * IZR K)%R by (field; split; lra).
    replace (1 * / IZR K * (P * G * IZR K))%R with (P * G)%R by (field; lra). exact HJ.
Qed.

Lemma moments_checked meth A b c : erk_tableau meth = Some (A, b, c) ->
  moments_ok (common [c] b) (if method_eqb meth DoPri8 then 10 ^ 28 else 0) b c (i_order (method_information meth)) = true.
Proof. intros E. destruct meth; try discriminate E; injection E as <- <- <-; vm_compute; reflexivity. Qed.

Lemma quad_solution (p : nat -> R -> R) b c A x y h k ndim (a : list R) m n eps : length y = ndim -> length c = length A -> length b = length A ->
  is_stages (fun u _ => Ok (map (fun m => p m u) (seq 0 ndim))) A c x y h k -> m < ndim -> (forall t, p m (x + t)%R = peval a t) ->
  length a <= n ->
  (forall j, j < n -> (Rabs (rsum (length b) (fun i => nth i b 0 * nth i c 0 ^ j) - 1 / INR (S j)) <= eps)%R) ->
  (Rabs (nth m (new_solution b y h k) 0 - (nth m y 0 + pint a h)) <= eps * rsum (length a) (fun j => Rabs (nth j a 0) * Rabs h ^ S j))%R.
Proof.
  intros LY LC LB (Lk & ST) Hm PA La MO. unfold new_solution, comb. rewrite nth_tabmap by lia.
  rewrite (rsum_ext (length b) _ (fun i => nth i b 0 * peval a (nth i c 0 * h))%R).
  2: { intros i Hi. specialize (ST i ltac:(lia)). injection ST as <-. rewrite nth_tabmap by exact Hm. now rewrite PA. }
  rewrite (rsum_ext (length b) _ (fun i => rsum (length a) (fun j => nth j a 0 * h ^ j * (nth i b 0 * nth i c 0 ^ j)))%R).
  2: { intros i Hi. rewrite peval_rsum, <- rsum_mul. apply rsum_ext. intros j _. rewrite Rpow_mult_distr. ring. }
  rewrite rsum_swap. rewrite (rsum_ext (length a) _ (fun j => nth j a 0 * h ^ j * rsum (length b) (fun i => nth i b 0 * nth i c 0 ^ j))%R) by (intros j _; now rewrite rsum_mul).
  rewrite <- rsum_mul. unfold pint.
  replace (nth m y 0 + rsum (length a) (fun j => h * (nth j a 0 * h ^ j * rsum (length b) (fun i => nth i b 0 * nth i c 0 ^ j))) - (nth m y 0 + rsum (length a) (fun j => nth j a 0 * (h ^ S j / INR (S j)))))%R
    with (rsum (length a) (fun j => nth j a 0 * h ^ S j * (rsum (length b) (fun i => nth i b 0 * nth i c 0 ^ j) - 1 / INR (S j)))%R).
  2: { enough (E : forall n, rsum n (fun j => nth j a 0 * h ^ S j * (rsum (length b) (fun i => nth i b 0 * nth i c 0 ^ j) - 1 / INR (S j)))%R =
         (rsum n (fun j => h * (nth j a 0 * h ^ j * rsum (length b) (fun i => nth i b 0 * nth i c 0 ^ j))) - rsum n (fun j => nth j a 0 * (h ^ S j / INR (S j))))%R) by (rewrite E; ring).
       clear. intros n. induction n as [|n IH]; cbn [rsum]; [lra|]. rewrite IH. cbn [pow]. unfold Rdiv. ring. }
  rewrite <- rsum_mul. revert MO La. clear. generalize (length a). intros l MO La. assert (MO' : forall j, j < l -> (Rabs (rsum (length b) (fun i => nth i b 0 * nth i c 0 ^ j) - 1 / INR (S j)) <= eps)%R) by (intros; apply MO; lia).
  clear MO La. induction l as [|l IH]; cbn [rsum]; [rewrite Rabs_R0; lra|].
  eapply Rle_trans; [apply Rabs_triang|]. apply Rplus_le_compat; [apply IH; intros; apply MO'; lia|].
  rewrite !Rabs_mult, <- RPow_abs. rewrite (Rmult_comm eps). apply Rmult_le_compat_l; [|apply MO'; lia]. apply Rmult_le_pos; [apply Rabs_pos|apply pow_le, Rabs_pos].
Qed.

(** One step on y' = p(x), with p of degree below the order of the method in every component, adds the exact integral:
    the increment of any antiderivative of p.  For DoPri8 the difference is below 10^-28 sum_j |a_j| |h|^(j+1),
    where p(x + t) = sum_j a_j t^j *)
Theorem C51_quadrature : forall meth A b c, erk_tableau meth = Some (A, b, c) ->
  forall ndim (P : nat -> list R) (F : nat -> R -> R),
  (forall m, m < ndim -> length (P m) <= i_order (method_information meth)) ->
  (forall m u, m < ndim -> is_derive (F m) u (peval (P m) u)) ->
  let f := fun u (_ : vec) => Ok (map (fun m => peval (P m) u) (seq 0 ndim)) in
  forall s ee w x y h s' w', erk_wf ndim s A b c ee -> length y = ndim ->
    (needs_k0 s w = false -> f x y = Ok (nth 0 (e_k s) [])) -> erk_step ndim f s w x y h = Ok (s', w') ->
    forall m, m < ndim ->
    if method_eqb meth DoPri8 then
      exists a, length a = length (P m) /\ (forall t, peval (P m) (x + t)%R = peval a t) /\
        (Rabs (nth m (e_w s') 0 - (nth m y 0 + (F m (x + h) - F m x))) <= 1 / 10 ^ 28 * rsum (length a) (fun j => Rabs (nth j a 0) * Rabs h ^ S j))%R
    else nth m (e_w s') 0%R = (nth m y 0 + (F m (x + h) - F m x))%R.
Proof.
  intros meth A b c E ndim P F DEG DER f s ee w x y h s' w' WF LY HK ES m Hm.
  destruct (C49_structure _ _ _ _ E) as (LB & LC & _).
  destruct (C50_step ndim f ltac:(intros ? z k Hz Hk; injection Hk as <-; now rewrite map_length, seq_length) _ _ _ _ _ _ _ _ _ _ _ WF LY HK ES) as (_ & _ & ST & -> & _).
  destruct (pshift (P m) x) as (a & La & PA).
  assert (INC : (F m (x + h) - F m x)%R = pint a h).
  { rewrite (same_increment (F m) (pint a) (peval (P m)) x h); [|intros; now apply DER|intros t; rewrite PA; apply pint_derive].
    assert (Z : pint a 0 = 0%R) by (unfold pint; apply rsum_zero; intros; cbn; unfold Rdiv; ring). rewrite Z. lra. }
  rewrite INC.
  pose proof (fun eps => quad_solution (fun m => peval (P m)) (Rrow b) (Rrow c) (Rmat A) x y h (e_k s') ndim a m (i_order (method_information meth)) eps LY
     ltac:(unfold Rrow, Rmat; rewrite !map_length; exact LC) ltac:(unfold Rrow, Rmat; rewrite !map_length; exact LB) ST Hm PA
     ltac:(rewrite La; now apply DEG)) as B.
  assert (K0 : (0 <= if method_eqb meth DoPri8 then 10 ^ 28 else 0)%Z) by (destruct (method_eqb meth DoPri8); discriminate).
  pose proof (moments_R _ _ _ _ _ K0 (moments_checked _ _ _ _ E)) as MO. replace (length b) with (length (Rrow b)) in MO by (unfold Rrow; now rewrite map_length).
  specialize (B _ MO). clear MO. destruct (method_eqb meth DoPri8).
  - exists a. splits; auto. change (Z.eqb (10 ^ 28) 0) with false in B. cbv beta iota in B. replace (IZR (10 ^ 28)) with (10 ^ 28)%R in B; [exact B|].
    rewrite (pow_IZR 10 28). reflexivity.
  - change (Z.eqb 0 0) with true in B. cbv beta iota in B. rewrite Rmult_0_l in B.
    pose proof (Rabs_pos (nth m (new_solution (Rrow b) y h (e_k s')) 0 - (nth m y 0 + pint a h))%R) as B0.
    assert (Z : Rabs (nth m (new_solution (Rrow b) y h (e_k s')) 0 - (nth m y 0 + pint a h))%R = 0%R) by lra.
    apply Rabs_eq_0 in Z. lra.
Qed.

(** a solver for every method, ready for a first step, on any right-hand side that keeps the dimension *)
Example C51_ex : forall meth A b c, erk_tableau meth = Some (A, b, c) ->
  exists s ee s' w', erk_wf 2 s A b c ee /\ needs_k0 s workspace_new = true /\
    erk_step 2 (fun _ z => Ok (map (Rmult (-3)) z)) s workspace_new 1 [5; 7]%R (1 / 10) = Ok (s', w').
Proof.
  intros meth A b c E. destruct (C58_defaults (fun _ _ => 1%R) ltac:(intros; lra) meth) as (p & Ep & _ & Em).
  assert (Pm : p_method p = meth) by exact Em.
  assert (N : exists s, erk_new p 2 = Ok s).
  { unfold erk_new. rewrite Pm, E. destruct meth; try discriminate E; cbn; eexists; reflexivity. }
  destruct N as (s & N). destruct (C50_new _ _ _ N) as (A' & b' & c' & ee & WF & Ep' & _).
  pose proof (wf_tab _ _ _ _ _ _ WF) as T. rewrite Ep', Pm, E in T. injection T as <- <- <-.
  destruct (C50_total 2 (fun _ z => Ok (map (Rmult (-3)) z)) ltac:(intros ? z k Hz Hk; injection Hk as <-; now rewrite map_length) s A b c ee workspace_new 1%R [5; 7]%R (1 / 10)%R WF eq_refl) as (s' & w' & ES).
  - intros u z _. eexists. reflexivity.
  - exists s, ee, s', w'. splits; auto.
Qed.

Print Assumptions C51_linear.
Print Assumptions C51_quadrature.
