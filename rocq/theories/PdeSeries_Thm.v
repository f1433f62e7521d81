(** C93, problem 4: the truncated series solves the equation exactly and the conditions on the sides
    y = -1 and y = 1 up to an error that goes to zero with the number of terms. *)
From Coq Require Import Reals List Lia Lra.
From Coquelicot Require Import Coquelicot.
From Verif Require Import Base RBase Grid_Model Bcs_Model PdeSample_Model PdeSample_Thm.
Import ListNotations.
Open Scope R_scope.

(** sum over a list of indices *)
Fixpoint lsum (f : nat -> R) (l : list nat) : R := match l with [] => 0 | k :: l => f k + lsum f l end.
Lemma lsum_ext f g l : (forall k, In k l -> f k = g k) -> lsum f l = lsum g l.
Proof. induction l as [|k l IH]; intros H; [reflexivity|]. cbn. rewrite H by now left. f_equal. apply IH. intros; apply H; now right. Qed.
Lemma lsum_zero f l : (forall k, In k l -> f k = 0) -> lsum f l = 0.
Proof. induction l as [|k l IH]; intros H; [reflexivity|]. cbn. rewrite H by now left. rewrite IH; [ring|]. intros; apply H; now right. Qed.
Lemma lsum_plus f g l : lsum (fun k => f k + g k) l = lsum f l + lsum g l.
Proof. induction l as [|k l IH]; cbn; [ring|]. rewrite IH. ring. Qed.
Lemma lsum_scal c f l : lsum (fun k => c * f k) l = c * lsum f l.
Proof. induction l as [|k l IH]; cbn; [ring|]. rewrite IH. ring. Qed.
Lemma lsum_map f (h : nat -> nat) l : lsum f (map h l) = lsum (fun i => f (h i)) l.
Proof. induction l as [|k l IH]; cbn; [ring|]. now rewrite IH. Qed.
Lemma lsum_S f n : lsum f (seq 0 (S n)) = lsum f (seq 0 n) + f n.
Proof. rewrite seq_S. change (0 + n)%nat with n. induction (seq 0 n) as [|k l IH]; cbn; [ring|]. rewrite IH. ring. Qed.
Lemma lsum_deriv (F : nat -> R -> R) (G : nat -> R) l x : (forall k, In k l -> derivable_pt_lim (F k) x (G k)) ->
  derivable_pt_lim (fun x => lsum (fun k => F k x) l) x (lsum G l).
Proof.
  induction l as [|k l IH]; intros H; cbn.
  - apply derivable_pt_lim_const.
  - apply (derivable_pt_lim_plus (F k) (fun x => lsum (fun k => F k x) l)); [apply H; now left|]. apply IH. intros; apply H; now right.
Qed.

(** the terms of the loop are the odd numbers below the limit *)
Lemma odd_below_in n k : In k (odd_below n) <-> Nat.odd k = true /\ (k < n)%nat.
Proof.
  unfold odd_below. rewrite in_map_iff. split.
  - intros (i & <- & H). apply in_seq in H. split.
    + rewrite Nat.odd_add, Nat.odd_mul. reflexivity.
    + pose proof (Nat.div_mod n 2). lia.
  - intros (O & H). apply Nat.odd_spec in O. destruct O as (i & ->). exists i. split; [reflexivity|]. apply in_seq.
    pose proof (Nat.div_mod n 2). pose proof (Nat.mod_upper_bound n 2). lia.
Qed.

Definition term4 (k : nat) (x y : R) : R :=
  sin (INR k * PI * (1 + x) / 2) * (sinh (INR k * PI * (1 + y) / 2) + sinh (INR k * PI * (1 - y) / 2)) * / (INR (k * k * k) * sinh (INR k * PI)).

Lemma fold_terms l x y : forall s, fold_left (fun sum k => d2_04_term k x y sum) l s = s + lsum (fun k => term4 k x y) l.
Proof.
  induction l as [|k l IH]; intros s; cbn [fold_left lsum]; [ring|]. rewrite IH. rewrite <- Rplus_assoc. f_equal. unfold d2_04_term, term4.
  destruct (Reqb_spec (sin (INR k * PI * (1 + x) / 2)) 0) as [E|E]; [rewrite E; ring|reflexivity].
Qed.

Definition phi4 (l : list nat) (x y : R) : R := (1 - x * x) / 2 - 16 / (PI * PI * PI) * lsum (fun k => term4 k x y) l.

Lemma sin_k k : sin (INR k * PI) = 0.
Proof. apply sin_eq_0_1. exists (Z.of_nat k). now rewrite INR_IZR_INZ. Qed.

Theorem C93_d2_problem_04 : forall n, exists p, d2_problem_04 n = Ok p /\ solves_2d_but [2; 3]%nat p 0.
Proof.
  intros n. eexists. split; [reflexivity|]. unfold solves_2d_but.
  cbn [p2_xmin p2_xmax p2_ymin p2_ymax p2_kx p2_ky p2_ebcs p2_nbcs p2_source p2_analytical p2_flow].
  splits; [lra|lra|reflexivity|reflexivity|reflexivity|].
  set (l := odd_below n). set (c := 16 / (PI * PI * PI)). pose proof PI_RGT_0 as HP.
  assert (PH : forall x y, (1 - x * x) / 2 - 16 * fold_left (fun sum k => d2_04_term k x y sum) l 0 / (PI * PI * PI) = phi4 l x y).
  { intros x y. rewrite fold_terms. unfold phi4. field. lra. }
  pose (a := fun k => INR k * PI / 2). pose (z := fun k => / (INR (k * k * k) * sinh (INR k * PI))).
  exists (fun x y => - x - c * lsum (fun k => a k * cos (INR k * PI * (1 + x) / 2) * (sinh (INR k * PI * (1 + y) / 2) + sinh (INR k * PI * (1 - y) / 2)) * z k) l),
    (fun x y => - c * lsum (fun k => sin (INR k * PI * (1 + x) / 2) * (a k * (cosh (INR k * PI * (1 + y) / 2) - cosh (INR k * PI * (1 - y) / 2))) * z k) l),
    (fun x y => - 1 - c * lsum (fun k => - a k ^ 2 * term4 k x y) l),
    (fun x y => - c * lsum (fun k => a k ^ 2 * term4 k x y) l).
  assert (EX : forall f f' x v, (forall y, f y = f' y) -> derivable_pt_lim f x v -> derivable_pt_lim f' x v).
  { intros f f' x v E H. apply is_derive_Reals. eapply is_derive_ext; [exact E|]. now apply is_derive_Reals. }
  splits.
  - intros x y _. eapply EX; [intros w; symmetry; apply PH|]. unfold phi4. fold c.
    apply (derivable_pt_lim_minus (fun x => (1 - x * x) / 2) (fun x => c * lsum (fun k => term4 k x y) l)); [dd; field|].
    apply (derivable_pt_lim_scal (fun x => lsum (fun k => term4 k x y) l)). apply (lsum_deriv (fun k x => term4 k x y)).
    intros k _. unfold term4, a. fold (z k). generalize (z k). intros zk.
    set (sh := sinh (INR k * PI * (1 + y) / 2) + sinh (INR k * PI * (1 - y) / 2)). clearbody sh. dd. field.
  - intros x y _. eapply EX; [intros w; symmetry; apply PH|]. unfold phi4. fold c.
    match goal with |- derivable_pt_lim _ _ (- c * ?L) => replace (- c * L) with (0 - c * L) by ring end.
    apply (derivable_pt_lim_minus (fun y => (1 - x * x) / 2) (fun y => c * lsum (fun k => term4 k x y) l)); [apply derivable_pt_lim_const|].
    apply (derivable_pt_lim_scal (fun y => lsum (fun k => term4 k x y) l)). apply (lsum_deriv (fun k y => term4 k x y)).
    intros k _. unfold term4, a. fold (z k). generalize (z k). intros zk.
    set (sh := sin (INR k * PI * (1 + x) / 2)). clearbody sh. unfold sinh, cosh. dd. field.
  - intros x y _.
    apply (derivable_pt_lim_minus (fun x => - x) (fun x => c * lsum _ l)); [dd; field|].
    apply (derivable_pt_lim_scal (fun x => lsum _ l)).
    apply (lsum_deriv (fun k x => a k * cos (INR k * PI * (1 + x) / 2) * (sinh (INR k * PI * (1 + y) / 2) + sinh (INR k * PI * (1 - y) / 2)) * z k)).
    intros k _. unfold term4, a. fold (z k). generalize (z k). intros zk.
    set (sh := sinh (INR k * PI * (1 + y) / 2) + sinh (INR k * PI * (1 - y) / 2)). clearbody sh. dd. field.
  - intros x y _.
    apply (derivable_pt_lim_scal (fun y => lsum _ l)).
    apply (lsum_deriv (fun k y => sin (INR k * PI * (1 + x) / 2) * (a k * (cosh (INR k * PI * (1 + y) / 2) - cosh (INR k * PI * (1 - y) / 2))) * z k)).
    intros k _. unfold term4, a. fold (z k). generalize (z k). intros zk.
    set (sh := sin (INR k * PI * (1 + x) / 2)). clearbody sh. unfold sinh, cosh. dd. field.
  - intros x y. rewrite (lsum_ext (fun k => - a k ^ 2 * term4 k x y) (fun k => -1 * (a k ^ 2 * term4 k x y))) by (intros; ring).
    rewrite lsum_scal. ring.
  - intros i x y nx ny NI S.
    assert (Z : x = -1 \/ x = 1).
    { destruct S as [(-> & -> & _)|[(-> & -> & _)|[(-> & _)|(-> & _)]]]; cbn; auto; exfalso; apply NI; cbn; auto. }
    split; intros f [H1 H2].
    + assert (F : f x y = 0). { destruct i as [|[|[|[|[|i]]]]]; cbn in H2; try discriminate H2; injection H2 as <-; reflexivity. }
      rewrite F, PH. unfold phi4. rewrite lsum_zero; [destruct Z as [-> | ->]; field; lra|].
      intros k _. unfold term4. replace (sin (INR k * PI * (1 + x) / 2)) with 0; [ring|].
      destruct Z as [-> | ->].
      * replace (INR k * PI * (1 + -1) / 2) with 0 by field. now rewrite sin_0.
      * replace (INR k * PI * (1 + 1) / 2) with (INR k * PI) by field. now rewrite sin_k.
    + destruct i as [|[|[|[|[|i]]]]]; cbn in H1; discriminate H1.
  - intros w [=].
Qed.

(** ** The residual on the sides y = -1 and y = 1 *)
Lemma mono_up f f' a b : a <= b -> (forall c, a <= c <= b -> derivable_pt_lim f c (f' c)) -> (forall c, a <= c <= b -> 0 <= f' c) -> f a <= f b.
Proof.
  intros L D P. destruct (Req_dec a b) as [->|N]; [lra|]. destruct (MVT_cor2 f f' a b) as (c & E & I); [lra|exact D|].
  pose proof (P c ltac:(lra)). assert (0 <= f' c * (b - a)) by (apply Rmult_le_pos; lra). lra.
Qed.
Lemma mono_down f f' a b : a <= b -> (forall c, a <= c <= b -> derivable_pt_lim f c (f' c)) -> (forall c, a <= c <= b -> f' c <= 0) -> f b <= f a.
Proof.
  intros L D P. destruct (Req_dec a b) as [->|N]; [lra|]. destruct (MVT_cor2 f f' a b) as (c & E & I); [lra|exact D|].
  pose proof (P c ltac:(lra)). assert (0 <= - f' c * (b - a)) by (apply Rmult_le_pos; lra). lra.
Qed.

Definition od (j : nat) : R := 2 * INR j + 1.
Lemma od_pos j : 0 < od j. Proof. unfold od. pose proof (pos_INR j). lra. Qed.
Definition hh (n : nat) (t : R) : R := PI / 4 - lsum (fun j => sin (od j * t) / od j) (seq 0 n).
Definition E1 (n : nat) (t : R) : R := PI * (PI - 2 * t) / 8 - lsum (fun j => cos (od j * t) / od j ^ 2) (seq 0 n).
Definition E0 (n : nat) (t : R) : R := PI * t * (PI - t) / 8 - lsum (fun j => sin (od j * t) / od j ^ 3) (seq 0 n).

Lemma sin_half j : sin (od j * (PI / 2)) = (-1) ^ j.
Proof.
  induction j as [|j IH]. { unfold od. cbn [INR pow]. replace ((2 * 0 + 1) * (PI / 2)) with (PI / 2) by field. apply sin_PI2. }
  replace (od (S j) * (PI / 2)) with (od j * (PI / 2) + PI) by (unfold od; rewrite S_INR; field).
  rewrite neg_sin, IH. cbn [pow]. ring.
Qed.
Lemma cos_half j : cos (od j * (PI / 2)) = 0.
Proof. pose proof (sin2_cos2 (od j * (PI / 2))) as H. rewrite sin_half in H. unfold Rsqr in H.
  replace ((-1) ^ j * (-1) ^ j) with 1 in H; [nra|]. rewrite <- Rpow_mult_distr. replace (-1 * -1) with 1 by ring. now rewrite pow1. Qed.

Lemma dirichlet n t : 2 * sin t * lsum (fun j => cos (od j * t)) (seq 0 n) = sin (2 * INR n * t).
Proof.
  induction n as [|n IH]. { cbn. rewrite Rmult_0_r, Rmult_0_r, Rmult_0_l, sin_0. reflexivity. }
  rewrite lsum_S, Rmult_plus_distr_l, IH, S_INR. unfold od.
  replace (2 * (INR n + 1) * t) with ((2 * INR n + 1) * t + t) by ring.
  replace (2 * INR n * t) with ((2 * INR n + 1) * t - t) by ring. rewrite sin_plus, sin_minus. ring.
Qed.

Lemma lsum_f_R0 f n : lsum f (seq 0 (S n)) = sum_f_R0 f n.
Proof. induction n as [|n IH]; [cbn; ring|]. rewrite lsum_S, IH. reflexivity. Qed.

Lemma leibniz n : (0 < n)%nat -> Rabs (hh n (PI / 2)) <= / (2 * INR n + 1).
Proof.
  intros Hn. destruct n as [|m]; [lia|]. unfold hh.
  rewrite (lsum_ext _ (tg_alt PI_tg)).
  2: { intros j _. rewrite sin_half. unfold tg_alt, PI_tg, od. rewrite plus_INR, mult_INR. reflexivity. }
  rewrite lsum_f_R0.
  assert (T : forall m, tg_alt PI_tg (S m) = (-1) ^ (S m) * / (2 * INR (S m) + 1)).
  { intros j. unfold tg_alt, PI_tg. rewrite plus_INR, mult_INR. reflexivity. }
  destruct (Nat.Even_or_Odd m) as [[N ->]|[N ->]].
  - pose proof (PI_ineq N) as [A B]. cbn [sum_f_R0] in A. rewrite T in A.
    replace ((-1) ^ S (2 * N)) with (-1) in A. 2: { cbn [pow]. rewrite pow_1_even. ring. }
    change (INR 2) with 2 in *. apply Rabs_le. 
    assert (0 < / (2 * INR (S (2 * N)) + 1)) by (apply Rinv_0_lt_compat; pose proof (pos_INR (S (2 * N))); lra). lra.
  - pose proof (PI_ineq N) as [A _]. pose proof (PI_ineq (S N)) as [_ B].
    replace (2 * S N)%nat with (S (S (2 * N))) in B by lia. cbn [sum_f_R0] in B. rewrite (T (S (2 * N))) in B.
    replace ((-1) ^ S (S (2 * N))) with 1 in B. 2: { cbn [pow]. rewrite pow_1_even. ring. }
    replace (2 * N + 1)%nat with (S (2 * N)) by lia.
    assert (0 < / (2 * INR (S (S (2 * N))) + 1)) by (apply Rinv_0_lt_compat; pose proof (pos_INR (S (S (2 * N)))); lra).
    apply Rabs_le. cbn [sum_f_R0] in A |- *. lra.
Qed.

Lemma hh_d n t : 0 < sin t -> derivable_pt_lim (hh n) t (- (sin (2 * INR n * t) / (2 * sin t))).
Proof.
  intros S. unfold hh. rewrite <- dirichlet.
  replace (- (2 * sin t * lsum (fun j => cos (od j * t)) (seq 0 n) / (2 * sin t))) with (0 - lsum (fun j => cos (od j * t)) (seq 0 n)) by (field; lra).
  apply (derivable_pt_lim_minus (fun _ => PI / 4) (fun t => lsum _ (seq 0 n))); [apply derivable_pt_lim_const|].
  apply (lsum_deriv (fun j t => sin (od j * t) / od j)). intros j _. pose proof (od_pos j). dd. field. lra.
Qed.
Lemma E1_d n t : derivable_pt_lim (E1 n) t (- hh n t).
Proof.
  unfold E1, hh. replace (- (PI / 4 - lsum (fun j => sin (od j * t) / od j) (seq 0 n)))
    with (- PI / 4 - lsum (fun j => - (sin (od j * t) / od j)) (seq 0 n)).
  2: { rewrite (lsum_ext (fun j => - (sin (od j * t) / od j)) (fun j => -1 * (sin (od j * t) / od j))) by (intros; ring). rewrite lsum_scal. field. }
  apply (derivable_pt_lim_minus (fun t => PI * (PI - 2 * t) / 8) (fun t => lsum _ (seq 0 n))); [dd; field|].
  apply (lsum_deriv (fun j t => cos (od j * t) / od j ^ 2)). intros j _. pose proof (od_pos j). dd. field. lra.
Qed.
Lemma E0_d n t : derivable_pt_lim (E0 n) t (E1 n t).
Proof.
  unfold E0, E1.
  apply (derivable_pt_lim_minus (fun t => PI * t * (PI - t) / 8) (fun t => lsum _ (seq 0 n))); [dd; field|].
  apply (lsum_deriv (fun j t => sin (od j * t) / od j ^ 3)). intros j _. pose proof (od_pos j). dd. field. lra.
Qed.

Lemma jordan t : 0 <= t <= PI / 2 -> t / 3 <= sin t.
Proof.
  intros H. pose proof PI_RGT_0. pose proof PI_4. 
  assert (A : forall t, 0 <= t <= PI / 3 -> t / 3 <= sin t).
  { intros s Hs. assert (sin 0 - 0 / 3 <= sin s - s / 3); [|rewrite sin_0 in *; lra].
    apply (mono_up (fun s => sin s - s / 3) (fun s => cos s - / 3)); [lra| |].
    - intros c _. dd. field.
    - intros c Hc. assert (cos (PI / 3) <= cos c) by (apply cos_decr_1; lra). rewrite cos_PI3 in *. lra. }
  destruct (Rle_dec t (PI / 3)) as [L|L]; [apply A; lra|].
  assert (sin (PI / 3) <= sin t) by (apply sin_incr_1; lra). rewrite sin_PI3 in *.
  assert (17 / 10 <= sqrt 3). { rewrite <- (sqrt_Rsqr (17 / 10)) by lra. apply sqrt_le_1_alt. unfold Rsqr. lra. }
  lra.
Qed.

Lemma hh_bound n t : (0 < n)%nat -> 0 < t <= PI / 2 -> Rabs (hh n t) <= 3 / INR n * / t.
Proof.
  intros Hn Ht. pose proof PI_RGT_0. assert (0 < INR n) by now apply lt_0_INR.
  assert (S : forall c, t <= c <= PI / 2 -> 0 < sin c) by (intros; apply sin_gt_0; lra).
  pose (u := fun t => hh n t - cos (2 * INR n * t) / (4 * INR n * sin t)). pose (v := fun t => / (4 * INR n * sin t)).
  pose (u' := fun t => cos (2 * INR n * t) * cos t / (4 * INR n * sin t ^ 2)). pose (v' := fun t => - cos t / (4 * INR n * sin t ^ 2)).
  assert (DU : forall c, t <= c <= PI / 2 -> derivable_pt_lim u c (u' c)).
  { intros c Hc. pose proof (S c Hc) as Sc. unfold u, u'.
    replace (cos (2 * INR n * c) * cos c / (4 * INR n * sin c ^ 2)) with
      (- (sin (2 * INR n * c) / (2 * sin c)) - (- (sin (2 * INR n * c) / (2 * sin c)) - cos (2 * INR n * c) * cos c / (4 * INR n * sin c ^ 2))) by ring.
    apply (derivable_pt_lim_minus (hh n) (fun t => cos (2 * INR n * t) / (4 * INR n * sin t))); [now apply hh_d|].
    apply is_derive_Reals. auto_derive; [nra|]. deq. field. split; lra. }
  assert (DV : forall c, t <= c <= PI / 2 -> derivable_pt_lim v c (v' c)).
  { intros c Hc. pose proof (S c Hc) as Sc. unfold v, v'. apply is_derive_Reals. auto_derive; [nra|]. deq. field. split; lra. }
  assert (C : forall c, t <= c <= PI / 2 -> 0 <= cos c) by (intros; apply cos_ge_0; lra).
  assert (PP : u (PI / 2) + v (PI / 2) <= u t + v t).
  { apply (mono_down (fun t => u t + v t) (fun t => u' t + v' t)); [lra| |].
    - intros c Hc. apply (derivable_pt_lim_plus u v); auto.
    - intros c Hc. pose proof (S c Hc). pose proof (C c Hc). pose proof (COS_bound (2 * INR n * c)).
      unfold u', v'. replace (cos (2 * INR n * c) * cos c / (4 * INR n * sin c ^ 2) + - cos c / (4 * INR n * sin c ^ 2)) with
       (- ((1 - cos (2 * INR n * c)) * cos c / (4 * INR n * sin c ^ 2))) by (field; lra).
      assert (0 <= (1 - cos (2 * INR n * c)) * cos c / (4 * INR n * sin c ^ 2)); [|lra].
      apply Rmult_le_pos; [apply Rmult_le_pos; lra|]. left. apply Rinv_0_lt_compat. apply Rmult_lt_0_compat; [lra|]. apply pow_lt; lra. }
  assert (QQ : u t - v t <= u (PI / 2) - v (PI / 2)).
  { apply (mono_up (fun t => u t - v t) (fun t => u' t - v' t)); [lra| |].
    - intros c Hc. apply (derivable_pt_lim_minus u v); auto.
    - intros c Hc. pose proof (S c Hc). pose proof (C c Hc). pose proof (COS_bound (2 * INR n * c)).
      unfold u', v'. replace (cos (2 * INR n * c) * cos c / (4 * INR n * sin c ^ 2) - - cos c / (4 * INR n * sin c ^ 2)) with
       ((1 + cos (2 * INR n * c)) * cos c / (4 * INR n * sin c ^ 2)) by (field; lra).
      apply Rmult_le_pos; [apply Rmult_le_pos; lra|]. left. apply Rinv_0_lt_compat. apply Rmult_lt_0_compat; [lra|]. apply pow_lt; lra. }
  pose proof (leibniz n Hn) as LB. apply Rabs_le_between in LB.
  unfold u, v in PP, QQ. rewrite sin_PI2, Rmult_1_r in PP, QQ. cbv beta in PP, QQ.
  pose proof (S t ltac:(lra)) as St. pose proof (jordan t ltac:(lra)) as J.
  set (w := / (4 * INR n)) in *. assert (Hw : 0 < w) by (apply Rinv_0_lt_compat; lra).
  set (z := / (4 * INR n * sin t)) in *. assert (Hz : 0 < z) by (apply Rinv_0_lt_compat, Rmult_lt_0_compat; lra).
  assert (B : forall c, - w <= cos c / (4 * INR n) <= w).
  { intros c. pose proof (COS_bound c). unfold Rdiv. fold w. nra. }
  assert (B' : forall c, - z <= cos c / (4 * INR n * sin t) <= z).
  { intros c. pose proof (COS_bound c). unfold Rdiv. fold z. nra. }
  pose proof (B (2 * INR n * (PI / 2))). pose proof (B' (2 * INR n * t)).
  assert (Z : z <= 3 / 4 / INR n * / t).
  { unfold z. replace (3 / 4 / INR n * / t) with (/ (4 * INR n * (t / 3))) by (field; lra). apply Rinv_le_contravar.
    - apply Rmult_lt_0_compat; lra.
    - apply Rmult_le_compat_l; lra. }
  assert (W : / (2 * INR n + 1) <= 3 / 2 / INR n * / t).
  { replace (3 / 2 / INR n * / t) with (/ (2 * INR n * (t / 3))) by (field; lra). apply Rinv_le_contravar.
    - apply Rmult_lt_0_compat; lra.
    - pose proof PI_4. nra. }
  replace (3 / INR n * / t) with (2 * (3 / 4 / INR n * / t) + 3 / 2 / INR n * / t) by (field; lra).
  apply Rabs_le. lra.
Qed.

Lemma E1_bound n t : (0 < n)%nat -> 0 < t <= PI / 2 -> Rabs (E1 n t) <= 3 / INR n * (ln (PI / 2) - ln t).
Proof.
  intros Hn Ht. pose proof PI_RGT_0. assert (0 < INR n) by now apply lt_0_INR.
  assert (Z : E1 n (PI / 2) = 0).
  { unfold E1. rewrite lsum_zero; [field|]. intros k _. rewrite cos_half. pose proof (od_pos k). field. lra. }
  set (c := 3 / INR n).
  assert (DL : forall s, t <= s -> derivable_pt_lim (fun s => c * ln s) s (c * / s)).
  { intros s Hs. apply is_derive_Reals. auto_derive; [lra|]. deq. field. lra. }
  assert (P : E1 n t + c * ln t <= E1 n (PI / 2) + c * ln (PI / 2)).
  { apply (mono_up (fun s => E1 n s + c * ln s) (fun s => - hh n s + c * / s)); [lra| |].
    - intros s Hs. apply (derivable_pt_lim_plus (E1 n)); [apply E1_d|apply DL; lra].
    - intros s Hs. pose proof (hh_bound n s Hn ltac:(lra)) as B. apply Rabs_le_between in B. unfold c. lra. }
  assert (Q : E1 n (PI / 2) - c * ln (PI / 2) <= E1 n t - c * ln t).
  { apply (mono_down (fun s => E1 n s - c * ln s) (fun s => - hh n s - c * / s)); [lra| |].
    - intros s Hs. apply (derivable_pt_lim_minus (E1 n) (fun s => c * ln s)); [apply E1_d|apply DL; lra].
    - intros s Hs. pose proof (hh_bound n s Hn ltac:(lra)) as B. apply Rabs_le_between in B. unfold c. lra. }
  rewrite Z in P, Q. apply Rabs_le. lra.
Qed.

Lemma E0_half n t : (0 < n)%nat -> 0 <= t <= PI / 2 -> Rabs (E0 n t) <= 3 * PI / (2 * INR n).
Proof.
  intros Hn Ht. pose proof PI_RGT_0. assert (HN : 0 < INR n) by now apply lt_0_INR.
  assert (Z : E0 n 0 = 0).
  { unfold E0. rewrite lsum_zero; [field|]. intros k _. rewrite Rmult_0_r, sin_0. pose proof (od_pos k). field. lra. }
  assert (K : 0 < 3 * PI / (2 * INR n)) by (apply Rdiv_lt_0_compat; lra).
  destruct (Req_dec t 0) as [->|N0]. { rewrite Z, Rabs_R0. lra. }
  set (c := 3 / INR n). assert (Hc : 0 < c) by (apply Rdiv_lt_0_compat; lra).
  pose (w := fun s => s * (ln (PI / 2) - ln s + 1)).
  assert (LN : forall s, 0 < s <= PI / 2 -> ln s <= ln (PI / 2)).
  { intros s Hs. destruct (Req_dec s (PI / 2)) as [->|NE]; [lra|]. left. apply ln_increasing; lra. }
  assert (DW : forall s, 0 < s -> derivable_pt_lim w s (ln (PI / 2) - ln s)).
  { intros s Hs. unfold w. apply is_derive_Reals. auto_derive; [lra|]. deq. field. lra. }
  assert (WP : w t <= PI / 2).
  { apply Rle_trans with (w (PI / 2)); [|unfold w; lra].
    apply (mono_up w (fun s => ln (PI / 2) - ln s)); [lra| |].
    - intros s Hs. apply DW. lra.
    - intros s Hs. pose proof (LN s ltac:(lra)). lra. }
  assert (DCW : forall s, 0 < s -> derivable_pt_lim (fun s => c * w s) s (c * (ln (PI / 2) - ln s))).
  { intros s Hs. apply (derivable_pt_lim_scal w). now apply DW. }
  assert (W0 : forall e, 0 < e <= t -> 0 <= c * w e).
  { intros e He. apply Rmult_le_pos; [lra|]. unfold w. pose proof (LN e ltac:(lra)). apply Rmult_le_pos; lra. }
  assert (U : forall e, 0 < e <= t -> Rabs (E0 n t) <= c * w t + Rabs (E0 n e)).
  { intros e He.
    assert (P : E0 n t - c * w t <= E0 n e - c * w e).
    { apply (mono_down (fun s => E0 n s - c * w s) (fun s => E1 n s - c * (ln (PI / 2) - ln s))); [lra| |].
      - intros s Hs. apply (derivable_pt_lim_minus (E0 n) (fun s => c * w s)); [apply E0_d|apply DCW; lra].
      - intros s Hs. pose proof (E1_bound n s Hn ltac:(lra)) as B. apply Rabs_le_between in B. unfold c. lra. }
    assert (Q : E0 n e + c * w e <= E0 n t + c * w t).
    { apply (mono_up (fun s => E0 n s + c * w s) (fun s => E1 n s + c * (ln (PI / 2) - ln s))); [lra| |].
      - intros s Hs. apply (derivable_pt_lim_plus (E0 n) (fun s => c * w s)); [apply E0_d|apply DCW; lra].
      - intros s Hs. pose proof (E1_bound n s Hn ltac:(lra)) as B. apply Rabs_le_between in B. unfold c. lra. }
    pose proof (W0 e He). pose proof (Rle_abs (E0 n e)). pose proof (Rle_abs (- E0 n e)). rewrite Rabs_Ropp in *.
    apply Rabs_le. lra. }
  assert (V : Rabs (E0 n t) <= c * w t).
  { apply le_epsilon. intros eps He.
    assert (CT : continuity_pt (E0 n) 0) by (apply derivable_continuous_pt; exists (E1 n 0); apply E0_d).
    destruct (CT eps He) as (al & Hal & CC).
    set (e := Rmin t (al / 2)). assert (0 < e) by (apply Rmin_pos; lra). assert (e <= t) by apply Rmin_l. assert (e <= al / 2) by apply Rmin_r.
    apply Rle_trans with (1 := U e ltac:(lra)). apply Rplus_le_compat_l. left.
    specialize (CC e). rewrite Z in CC. cbn in CC. unfold R_dist in CC. rewrite !Rminus_0_r in CC. apply CC. split.
    - split; [exact I|lra].
    - rewrite Rabs_right; lra. }
  apply Rle_trans with (1 := V). apply Rle_trans with (c * (PI / 2)).
  - apply Rmult_le_compat_l; lra.
  - right. unfold c. field. lra.
Qed.

Lemma sin_sym j t : sin (od j * (PI - t)) = sin (od j * t).
Proof.
  replace (od j * (PI - t)) with (PI - od j * t + 2 * INR j * PI) by (unfold od; ring).
  rewrite sin_period. apply sin_PI_x.
Qed.
Lemma E0_bound n t : (0 < n)%nat -> 0 <= t <= PI -> Rabs (E0 n t) <= 3 * PI / (2 * INR n).
Proof.
  intros Hn Ht. destruct (Rle_dec t (PI / 2)) as [L|L]; [apply E0_half; lra || auto|].
  replace (E0 n t) with (E0 n (PI - t)); [apply E0_half; auto; lra|].
  unfold E0. f_equal; [field|]. apply lsum_ext. intros k _. now rewrite sin_sym.
Qed.

(** On the two remaining sides the potential should vanish.  The loop has ana_nsum / 2 terms
    (rounded down), and the error it leaves is at most 24 / (PI^2 (ana_nsum / 2)). *)
Theorem C93_d2_problem_04_truncation : forall n p, d2_problem_04 n = Ok p -> (2 <= n)%nat ->
  forall x y, -1 <= x <= 1 -> y = p2_ymin p \/ y = p2_ymax p ->
  Rabs (p2_analytical p x y) <= 24 / (PI ^ 2 * INR (n / 2)).
Proof.
  intros n p E Hn x y Hx Hy. injection E as <-. cbn [p2_ymin p2_ymax p2_analytical] in *.
  pose proof PI_RGT_0 as HP. rewrite fold_terms. set (m := (n / 2)%nat).
  assert (Hm : (0 < m)%nat). { apply Nat.div_str_pos. lia. }
  assert (HM : 0 < INR m) by now apply lt_0_INR.
  unfold odd_below. fold m. rewrite lsum_map.
  rewrite (lsum_ext _ (fun j => sin (od j * (PI * (1 + x) / 2)) / od j ^ 3)).
  2: { intros j _. unfold term4. rewrite !mult_INR. replace (INR (2 * j + 1)) with (od j) by (unfold od; rewrite plus_INR, mult_INR; reflexivity).
       pose proof (od_pos j) as Hj. replace (od j * PI * (1 + x) / 2) with (od j * (PI * (1 + x) / 2)) by field.
       assert (HS : sinh (od j * PI) <> 0).
       { unfold sinh. assert (0 < od j * PI) by (apply Rmult_lt_0_compat; lra).
         assert (exp (- (od j * PI)) < exp (od j * PI)) by (apply exp_increasing; lra). lra. }
       replace (sinh (od j * PI * (1 + y) / 2) + sinh (od j * PI * (1 - y) / 2)) with (sinh (od j * PI)); [field; split; lra|].
       destruct Hy as [-> | ->].
       - replace (od j * PI * (1 + -1) / 2) with 0 by field. replace (od j * PI * (1 - -1) / 2) with (od j * PI) by field. rewrite sinh_0. ring.
       - replace (od j * PI * (1 - 1) / 2) with 0 by field. replace (od j * PI * (1 + 1) / 2) with (od j * PI) by field. rewrite sinh_0. ring. }
  replace ((1 - x * x) / 2 - 16 * (0 + lsum (fun j => sin (od j * (PI * (1 + x) / 2)) / od j ^ 3) (seq 0 m)) / (PI * PI * PI))
    with (16 / PI ^ 3 * E0 m (PI * (1 + x) / 2)) by (unfold E0; field; lra).
  rewrite Rabs_mult, (Rabs_right (16 / PI ^ 3)).
  2: { apply Rle_ge. left. apply Rdiv_lt_0_compat; [lra|]. apply pow_lt; lra. }
  replace (24 / (PI ^ 2 * INR m)) with (16 / PI ^ 3 * (3 * PI / (2 * INR m))) by (field; lra).
  apply Rmult_le_compat_l.
  - left. apply Rdiv_lt_0_compat; [lra|]. apply pow_lt; lra.
  - apply E0_bound; [exact Hm|]. split; nra.
Qed.

(** The documentation of problem 4 calls ana_nsum the number of summation terms, but the loop visits the odd numbers below it, which are half as many; with ana_nsum = 1 the sum is
    empty and the returned function is (1 - x^2) / 2, which is 1/2 where the boundary condition asks for 0. *)
Theorem C93_nsum_refuted :
  (forall n, length (odd_below n) = (n / 2)%nat /\ (forall k, In k (odd_below n) <-> Nat.odd k = true /\ (k < n)%nat)) /\
  exists p, d2_problem_04 1 = Ok p /\ p2_analytical p 0 (p2_ymax p) = 1 / 2.
Proof.
  split.
  - intros n. split; [|apply odd_below_in]. unfold odd_below. now rewrite map_length, seq_length.
  - eexists. split; [reflexivity|]. cbn. field. apply PI_neq0.
Qed.

(** with 200 the loop has 100 terms and the conditions hold up to 0.03 *)
Example C93_d2_04_example : exists p, d2_problem_04 200 = Ok p /\ Rabs (p2_analytical p (1 / 3) 1) <= 24 / (PI ^ 2 * 100).
Proof.
  eexists. split; [reflexivity|].
  replace 100 with (INR (200 / 2)) by (cbn; lra).
  eapply (C93_d2_problem_04_truncation 200); [reflexivity|lia|lra|right; reflexivity].
Qed.

Print Assumptions C93_d2_problem_04.
Print Assumptions C93_d2_problem_04_truncation.
Print Assumptions C93_nsum_refuted.
