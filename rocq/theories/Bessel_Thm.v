(** Bessel functions of integer order and powers of the imaginary unit: what is returned (C102) *)
From Coq Require Import Reals.
From Coquelicot Require Import Complex.
From Verif Require Import Base RBase Float_Model Bessel_Model.
Local Open Scope R_scope.

Local Notation C := Complex.C.

(* ------------------------------------------------------------------ *)
(** * Specification *)

(** sqrt(2/(pi x)) (P cos(x - phi) - Q sin(x - phi)) and sqrt(2/(pi x)) (P sin(x - phi) + Q cos(x - phi)):
    Hankel's form of the functions of the first and of the second kind *)
Definition hankel_j (P Q phi x : R) : R := sqrt (2 / (PI * x)) * (P * cos (x - phi) - Q * sin (x - phi)).
Definition hankel_y (P Q phi x : R) : R := sqrt (2 / (PI * x)) * (P * sin (x - phi) + Q * cos (x - phi)).

(** the recurrence of J and Y: c(i-1) + c(i+1) = (2 i / x) c(i), for the orders 1 .. m *)
Definition recurrence (x : R) (m : nat) (c : nat -> R) : Prop :=
  forall i : nat, (1 <= i <= m)%nat -> c (i - 1)%nat + c (i + 1)%nat = 2 * INR i / x * c i.
(** the recurrence of I: c(i-1) - c(i+1) = (2 i / x) c(i) *)
Definition recurrence_i (x : R) (m : nat) (c : nat -> R) : Prop :=
  forall i : nat, (1 <= i <= m)%nat -> c (i - 1)%nat - c (i + 1)%nat = 2 * INR i / x * c i.
(** the recurrence of K: c(i+1) - c(i-1) = (2 i / x) c(i) *)
Definition recurrence_k (x : R) (c : nat -> R) : Prop :=
  forall i : nat, (1 <= i)%nat -> c (i + 1)%nat - c (i - 1)%nat = 2 * INR i / x * c i.

(** the opposite value of a call; (-1)^n times the value *)
Definition opposite (r : res xr) : res xr := match r with Ok v => Ok (xneg v) | Err e => Err e | Panic => Panic end.
Definition signed (n : Z) (r : res xr) : res xr := if Z.odd n then opposite r else r.

(* ------------------------------------------------------------------ *)
(** * Preliminaries *)

Lemma land1 n : (Z.land n 1 =? 1)%Z = Z.odd n.
Proof.
  change 1%Z with (Z.ones 1) at 1. rewrite Z.land_ones by lia. change (2 ^ 1)%Z with 2%Z.
  rewrite Zmod_odd. destruct (Z.odd n); reflexivity.
Qed.
Lemma i32_ok n : (- 2 ^ 31 <= n < 2 ^ 31)%Z -> i32 n = Ok n.
Proof. intros H. unfold i32. destruct (Z.leb_spec (- 2 ^ 31) n), (Z.ltb_spec n (2 ^ 31)); simpl; auto; lia. Qed.
Lemma i32_bad n : (n < - 2 ^ 31 \/ 2 ^ 31 <= n)%Z -> i32 n = Panic.
Proof. intros H. unfold i32. destruct (Z.leb_spec (- 2 ^ 31) n), (Z.ltb_spec n (2 ^ 31)); simpl; auto; lia. Qed.

Lemma cos_pi4 x : cos (x - PI / 4) = (sin x + cos x) * / sqrt 2.
Proof. rewrite cos_minus, cos_PI4, sin_PI4. unfold Rdiv. ring. Qed.
Lemma sin_pi4 x : sin (x - PI / 4) = (sin x - cos x) * / sqrt 2.
Proof. rewrite sin_minus, cos_PI4, sin_PI4. unfold Rdiv. ring. Qed.
Lemma cos_shift x : cos (x - PI / 2) = sin x.
Proof. rewrite cos_minus, cos_PI2, sin_PI2. ring. Qed.
Lemma sin_shift x : sin (x - PI / 2) = - cos x.
Proof. rewrite sin_minus, cos_PI2, sin_PI2. ring. Qed.
Lemma cos_3pi4 x : cos (x - 3 * PI / 4) = (sin x - cos x) * / sqrt 2.
Proof. replace (x - 3 * PI / 4) with (x - PI / 4 - PI / 2) by field. rewrite cos_shift. apply sin_pi4. Qed.
Lemma sin_3pi4 x : sin (x - 3 * PI / 4) = (- sin x - cos x) * / sqrt 2.
Proof. replace (x - 3 * PI / 4) with (x - PI / 4 - PI / 2) by field. rewrite sin_shift, cos_pi4. ring. Qed.
Lemma sqrt2_pos : 0 < sqrt 2.
Proof. apply sqrt_lt_R0. lra. Qed.
Lemma amplitude x : 0 < x -> sqrt (2 / (PI * x)) = sqrt 2 * / sqrt PI * / sqrt x.
Proof.
  intros Hx. pose proof PI_RGT_0.
  rewrite sqrt_div_alt by (apply Rmult_lt_0_compat; lra).
  rewrite sqrt_mult by lra. unfold Rdiv. rewrite Rinv_mult. ring.
Qed.

Lemma amp_cos x a : 0 < x -> sqrt (2 / (PI * x)) * (a * / sqrt 2) = 1 / sqrt PI * a / sqrt x.
Proof. intros Hx. pose proof sqrt2_pos. rewrite amplitude by auto. field. splits; try lra; apply Rgt_not_eq, sqrt_lt_R0; auto. apply PI_RGT_0. Qed.

Section Bessel.
Variables rs0 uv0 rs1 uv1 pzero qzero pone qone : R -> R.
Variables u00 half_max lower_exp : R.
Notation phase0 := (phase0 half_max).
Notation phase1 := (phase1 half_max).
Notation j0 := (bessel_j0 rs0 pzero qzero half_max).
Notation y0 := (bessel_y0 rs0 uv0 pzero qzero u00 half_max).
Notation j1 := (bessel_j1 rs1 pone qone half_max).
Notation y1 := (bessel_y1 rs1 uv1 pone qone half_max).
Notation jn := (bessel_jn rs0 rs1 pzero qzero pone qone half_max lower_exp).
Notation yn := (bessel_yn rs0 uv0 rs1 uv1 pzero qzero pone qone u00 half_max).

Lemma cos_2x x : cos (x + x) = (cos x - sin x) * (cos x + sin x).
Proof. rewrite cos_plus. ring. Qed.
Lemma sc_nonzero x : sin x = 0 -> cos x = 0 -> False.
Proof. intros A B. pose proof (sin2_cos2 x) as H. unfold Rsqr in H. rewrite A, B in H. lra. Qed.

Lemma sum_nz s c : 0 <= s * c -> (s = 0 -> c = 0 -> False) -> s + c <> 0.
Proof.
  intros H Z E. assert (c = - s) by lra. subst c. assert (s * s <= 0) by nra.
  assert (s = 0) by nra. apply Z; lra.
Qed.

Lemma phase0_eq x : phase0 x = (sin x - cos x, sin x + cos x).
Proof.
  unfold Bessel_Model.phase0. destruct (Rltb_spec x half_max) as [_|_]; [|reflexivity].
  pose proof (sc_nonzero x) as N. rewrite cos_2x.
  destruct (Rltb_spec (sin x * cos x) 0) as [H|H]; f_equal.
  - field. intros E. assert (sin x = cos x) by lra. rewrite H0 in H. nra.
  - field. apply sum_nz; auto.
Qed.
Lemma phase1_eq x : phase1 x = (- sin x - cos x, sin x - cos x).
Proof.
  unfold Bessel_Model.phase1. destruct (Rltb_spec x half_max) as [_|_]; [|reflexivity].
  pose proof (sc_nonzero x) as N. rewrite cos_2x.
  destruct (Rltb_spec 0 (sin x * cos x)) as [H|H]; f_equal.
  - field. intros E. apply (sum_nz (sin x) (cos x)); try lra; auto.
  - field. intros E. apply (sum_nz (sin x) (- cos x)); try lra; intros; apply N; lra.
Qed.

(* ------------------------------------------------------------------ *)
(** * Orders zero and one *)

(** From two on, the four functions of order zero and one are Hankel's form with the library's P and Q (with
    P = 1 and Q = 0 beyond 2^129) and the phases pi/4 and 3 pi/4: the rewriting that avoids cancellation never
    divides by zero and never changes the value. *)
Theorem C102_hankel_form : forall x : R, 2 <= x ->
  let far := Rltb (2 ^ 129) x in
  let P0 := if far then 1 else pzero x in let Q0 := if far then 0 else qzero x in
  let P1 := if far then 1 else pone x in let Q1 := if far then 0 else qone x in
  j0 (Fin x) = Fin (hankel_j P0 Q0 (PI / 4) x) /\ y0 (Fin x) = Fin (hankel_y P0 Q0 (PI / 4) x) /\
  j1 (Fin x) = Fin (hankel_j P1 Q1 (3 * PI / 4) x) /\ y1 (Fin x) = Fin (hankel_y P1 Q1 (3 * PI / 4) x).
Proof.
  intros x Hx. cbn zeta. unfold hankel_j, hankel_y.
  rewrite cos_pi4, sin_pi4, cos_3pi4, sin_3pi4.
  unfold bessel_j0, bessel_y0, bessel_j1, bessel_y1, two_129.
  replace (Reqb x 0) with false by (symmetry; apply Reqb_false; lra).
  replace (Rltb x 0) with false by (symmetry; apply Rltb_false; lra).
  rewrite (Rabs_right x) by lra.
  replace (Rleb 2 x) with true by (symmetry; apply Rleb_true; lra).
  rewrite phase0_eq, phase1_eq.
  assert (Hx0 : 0 < x) by lra.
  destruct (Rltb (2 ^ 129) x); splits; f_equal; rewrite <- amp_cos by auto; ring.
Qed.

(** J0 is even, J1 is odd except for the arguments treated below *)
Theorem C102_j0_even : forall x : xr, j0 (xneg x) = j0 x.
Proof.
  intros [|s|x]; simpl; auto. rewrite Rabs_Ropp.
  destruct (Reqb_spec x 0), (Reqb_spec (- x) 0); auto; lra.
Qed.
Lemma fin0 : Fin (- 0) = Fin 0.
Proof. f_equal. ring. Qed.
Theorem C102_j1_odd : forall x : xr,
  match x with Fin r => r = 0 \/ / 2 ^ 27 <= Rabs r | _ => True end -> j1 (xneg x) = xneg (j1 x).
Proof.
  intros [|s|x]; cbn [xneg j1]; auto; [intros _; symmetry; apply fin0|].
  intros Hx. unfold bessel_j1.
  destruct (Reqb_spec x 0) as [->|N].
  { replace (Reqb (- 0) 0) with true by (symmetry; apply Reqb_true; ring). simpl. symmetry. apply fin0. }
  replace (Reqb (- x) 0) with false by (symmetry; apply Reqb_false; lra).
  destruct Hx as [E|Hx]; [contradiction|]. fold two_m27 in Hx.
  destruct (Rltb_spec x 0) as [Q|Q]; destruct (Rltb_spec (- x) 0) as [Q'|Q']; try lra.
  - rewrite Rabs_left in Hx by auto.
    destruct (Rleb 2 (- x)).
    + destruct (phase1 (- x)) as [ss cc]. simpl. f_equal. ring.
    + replace (Rltb (- x) two_m27) with false by (symmetry; apply Rltb_false; lra). simpl. f_equal. ring.
  - rewrite Ropp_involutive. rewrite Rabs_right in Hx by lra.
    destruct (Rleb 2 x).
    + destruct (phase1 x) as [ss cc]. simpl. reflexivity.
    + replace (Rltb x two_m27) with false by (symmetry; apply Rltb_false; lra). reflexivity.
Qed.
(** FINDING: for -2^-27 < x < 0, `bessel_j1` returns -x/2 > 0 instead of x/2: the branch for tiny arguments forgets
    the sign, so that J1 is not odd (bessel_1.rs:128-130).  `bessel_jn(1, x)` for these x and `bessel_jn(-1, x)` for 0 < x < 2^-27 inherit it. *)
Theorem C102_j1_odd_refuted : forall x : R, 0 < x < / 2 ^ 27 ->
  j1 (Fin x) = Fin (x / 2) /\ j1 (Fin (- x)) = Fin (x / 2) /\ (forall fuel, jn fuel (-1) (Fin x) = Ok (Fin (x / 2))) /\
  (forall fuel, jn fuel 1 (Fin (- x)) = Ok (Fin (x / 2))).
Proof.
  intros x Hx.
  assert (H2 : / 2 ^ 27 < 2) by lra.
  assert (A : j1 (Fin x) = Fin (x / 2)).
  { unfold bessel_j1, two_m27.
    replace (Reqb x 0) with false by (symmetry; apply Reqb_false; lra).
    replace (Rltb x 0) with false by (symmetry; apply Rltb_false; lra).
    replace (Rleb 2 x) with false by (symmetry; apply Rleb_false; lra).
    replace (Rltb x (/ 2 ^ 27)) with true by (symmetry; apply Rltb_true; lra). f_equal. field. }
  assert (B : j1 (Fin (- x)) = Fin (x / 2)).
  { unfold bessel_j1, two_m27.
    replace (Reqb (- x) 0) with false by (symmetry; apply Reqb_false; lra).
    replace (Rltb (- x) 0) with true by (symmetry; apply Rltb_true; lra). rewrite Ropp_involutive.
    replace (Rleb 2 x) with false by (symmetry; apply Rleb_false; lra).
    replace (Rltb x (/ 2 ^ 27)) with true by (symmetry; apply Rltb_true; lra). f_equal. field. }
  splits; auto; intros fuel; unfold bessel_jn.
  - simpl. replace (Reqb x 0) with false by (symmetry; apply Reqb_false; lra). simpl. rewrite <- B. reflexivity.
  - replace (Reqb (- x) 0) with false by (symmetry; apply Reqb_false; lra). simpl. rewrite <- B. reflexivity.
Qed.

(* ------------------------------------------------------------------ *)
(** * Parity and reflection of J and Y *)

Lemma opp_opp r : opposite (opposite r) = r.
Proof. destruct r as [[|s|x]|e|]; simpl; auto. - now rewrite negb_involutive. - now rewrite Ropp_involutive. Qed.

(** the value of Jn for an order nn >= 2 and an argument xx > 0 *)
Definition jn_pos (fuel : nat) (nn : Z) (xx : R) : res R :=
  if Rleb (IZR nn) xx then
    if Rleb two_302 xx then
      Ok (1 / sqrt PI * match Z.land nn 3 with
                  | 0%Z => cos xx + sin xx
                  | 1%Z => - cos xx + sin xx
                  | 2%Z => - cos xx - sin xx
                  | _ => cos xx - sin xx
                  end / sqrt xx)
    else ' (_, b) <- forward nn xx (fin (j0 (Fin xx))) (fin (j1 (Fin xx))) ;; Ok b
  else if Rltb xx two_m29 then
    if (33 <? nn)%Z then Ok 0 else first_term nn xx
  else
    m <- i32 (nn + nn) ;;
    k <- count_terms fuel (2 / xx) (IZR m / xx) (IZR m / xx + 2 / xx) (IZR m / xx * (IZR m / xx + 2 / xx) - 1) 1 ;;
    i0 <- i32 (nn + k) ;; i <- i32 (2 * i0) ;;
    let t := fraction (S (Z.to_nat k)) xx m i 0 in
    let '(_, b, t) := backward (Z.to_nat nn) xx (negb (Rltb (IZR nn * ln (Rabs (2 * IZR nn / xx))) lower_exp)) (nn - 1) t 1 t in
    Ok (t * fin (j0 (Fin xx)) / b).
Definition to_xr (r : res R) : res xr := b <- r ;; Ok (Fin b).

Lemma jn_unfold fuel n x : (2 <= Z.abs n)%Z -> n <> (- 2 ^ 31)%Z -> (- 2 ^ 31 <= n < 2 ^ 31)%Z -> x <> 0 ->
  jn fuel n (Fin x) = (if xorb (n <? 0)%Z (Rltb x 0) && Z.odd n then opposite else fun r => r)
                        (to_xr (jn_pos fuel (Z.abs n) (Rabs x))).
Proof.
  intros Hn Hm Hr Hx. unfold bessel_jn. cbv zeta.
  replace (n =? 0)%Z with false by (symmetry; apply Z.eqb_neq; lia).
  replace (Reqb x 0) with false by (symmetry; apply Reqb_false; lra).
  assert (E : (' (nn, xx) <- (if (n <? 0)%Z then nn <- i32 (- n) ;; Ok (nn, - x) else Ok (n, x)) ;; Ok (nn, xx)) =
              Ok (Z.abs n, if (n <? 0)%Z then - x else x)).
  { destruct (Z.ltb_spec n 0).
    - rewrite i32_ok by lia. simpl. rewrite Z.abs_neq by lia. reflexivity.
    - simpl. rewrite Z.abs_eq by lia. reflexivity. }
  set (e := if (n <? 0)%Z then nn <- i32 (- n) ;; Ok (nn, - x) else Ok (n, x)) in *.
  assert (E' : e = Ok (Z.abs n, if (n <? 0)%Z then - x else x)) by (destruct e as [[? ?]| |]; simpl in E; congruence).
  rewrite E'. cbn [bind].
  replace (Z.abs n =? 1)%Z with false by (symmetry; apply Z.eqb_neq; lia).
  assert (O : Z.odd (Z.abs n) = Z.odd n).
  { destruct (Z.abs_eq_or_opp n) as [->| ->]; auto. apply Z.odd_opp. }
  assert (X : (if Rltb (if (n <? 0)%Z then - x else x) 0 then (- (if (n <? 0)%Z then - x else x), (Z.land (Z.abs n) 1 =? 1)%Z)
               else (if (n <? 0)%Z then - x else x, false)) =
              (Rabs x, xorb (n <? 0)%Z (Rltb x 0) && Z.odd n)).
  { rewrite land1, O. destruct (n <? 0)%Z; simpl.
    - destruct (Rltb_spec (- x) 0), (Rltb_spec x 0); try lra; simpl.
      + rewrite Rabs_right by lra. f_equal. ring.
      + rewrite Rabs_left by lra. reflexivity.
    - destruct (Rltb_spec x 0); simpl.
      + rewrite Rabs_left by lra. reflexivity.
      + rewrite Rabs_right by lra. reflexivity. }
  rewrite X. cbv iota. fold (jn_pos fuel (Z.abs n) (Rabs x)).
  unfold to_xr.
  destruct (jn_pos fuel (Z.abs n) (Rabs x)), (xorb (n <? 0)%Z (Rltb x 0) && Z.odd n); reflexivity.
Qed.

Lemma abs_nz x : x <> 0 -> - x <> 0.
Proof. lra. Qed.

(** Jn(-x) = (-1)^n Jn(x) for every order but 1 and -1 (see above), whatever the argument, and whatever happens *)
Theorem C102_jn_parity : forall fuel (n : Z) (x : xr), (- 2 ^ 31 < n < 2 ^ 31)%Z -> Z.abs n <> 1%Z ->
  jn fuel n (xneg x) = signed n (jn fuel n x).
Proof.
  intros fuel n x Hr H1. unfold signed. destruct x as [|s|x].
  - simpl. destruct (Z.odd n); reflexivity.
  - simpl. destruct (Z.odd n); auto. simpl. now rewrite fin0.
  - destruct (Z.eq_dec n 0) as [->|N0].
    { simpl Z.odd. cbv iota. change (jn fuel 0 (Fin x)) with (Ok (j0 (Fin x))).
      change (jn fuel 0 (xneg (Fin x))) with (Ok (j0 (xneg (Fin x)))). now rewrite C102_j0_even. }
    destruct (Req_dec x 0) as [->|X].
    { unfold bessel_jn, xneg. replace (n =? 0)%Z with false by (symmetry; now apply Z.eqb_neq).
      replace (Reqb (- 0) 0) with true by (symmetry; apply Reqb_true; ring).
      replace (Reqb 0 0) with true by (symmetry; apply Reqb_true; ring).
      destruct (Z.odd n); auto. simpl. now rewrite fin0. }
    cbn [xneg]. rewrite !jn_unfold by (auto; lia || lra). rewrite Rabs_Ropp.
    destruct (Rltb_spec x 0), (Rltb_spec (- x) 0); try lra; destruct (n <? 0)%Z, (Z.odd n); simpl; auto; now rewrite opp_opp.
Qed.
(** J(-n)(x) = (-1)^n Jn(x) *)
Theorem C102_jn_reflection : forall fuel (n : Z) (x : xr), (- 2 ^ 31 < n < 2 ^ 31)%Z -> Z.abs n <> 1%Z ->
  jn fuel (- n) x = signed n (jn fuel n x).
Proof.
  intros fuel n x Hr H1. unfold signed. destruct x as [|s|x].
  - simpl. destruct (Z.odd n); reflexivity.
  - simpl. destruct (Z.odd n); auto. simpl. now rewrite fin0.
  - destruct (Z.eq_dec n 0) as [->|N0]; [reflexivity|].
    destruct (Req_dec x 0) as [->|X].
    { unfold bessel_jn, xneg. replace (n =? 0)%Z with false by (symmetry; now apply Z.eqb_neq).
      replace (- n =? 0)%Z with false by (symmetry; apply Z.eqb_neq; lia).
      replace (Reqb 0 0) with true by (symmetry; apply Reqb_true; ring).
      destruct (Z.odd n); auto. simpl. now rewrite fin0. }
    rewrite !jn_unfold by (auto; lia || lra). rewrite Z.abs_opp, Z.odd_opp.
    destruct (Z.ltb_spec n 0), (Z.ltb_spec (- n) 0); try lia; destruct (Rltb x 0), (Z.odd n); simpl; auto; now rewrite opp_opp.
Qed.
Lemma jn_1 fuel x : jn fuel 1 x = Ok (j1 x).
Proof. destruct x as [|s|x]; try reflexivity. unfold bessel_jn. simpl. destruct (Reqb_spec x 0); auto. Qed.
(** orders 1 and -1 *)
Theorem C102_jn_one : forall fuel (x : xr), match x with Fin r => r = 0 \/ / 2 ^ 27 <= Rabs r | _ => True end ->
  jn fuel 1 x = Ok (j1 x) /\ jn fuel (-1) x = Ok (xneg (j1 x)) /\ jn fuel 1 (xneg x) = Ok (xneg (j1 x)).
Proof.
  assert (E := jn_1).
  assert (E' : forall fuel x, jn fuel (-1) x = Ok (j1 (xneg x))).
  { intros fuel [|s|x]; try reflexivity. unfold bessel_jn. simpl.
    destruct (Reqb_spec x 0) as [->|N]; auto.
    replace (Reqb (- 0) 0) with true by (symmetry; apply Reqb_true; ring). reflexivity. }
  intros fuel x Hx. rewrite !E, E', C102_j1_odd by auto. auto.
Qed.

(* ------------------------------------------------------------------ *)
(** * The recurrence in both directions *)

Fixpoint vs (x a b : R) (n : nat) : R * R :=
  match n with O => (a, b) | S n' => let '(p, q) := vs x a b n' in (q, q * (2 * INR n / x) - p) end.
Definition vseq x a b n := fst (vs x a b n).
Lemma vs_pair x a b n : vs x a b n = (vseq x a b n, vseq x a b (S n)).
Proof. unfold vseq. simpl. destruct (vs x a b n). reflexivity. Qed.
Lemma vseq_rec x a b m : recurrence x m (vseq x a b).
Proof.
  intros i Hi. destruct i as [|i]; [lia|]. replace (S i - 1)%nat with i by lia. replace (S i + 1)%nat with (S (S i)) by lia.
  unfold vseq at 2 3. change (vs x a b (S (S i))) with (let '(p, q) := vs x a b (S i) in (q, q * (2 * INR (S (S i)) / x) - p)).
  rewrite (vs_pair x a b (S i)). cbn [fst].
  assert (E : vseq x a b (S (S i)) = vseq x a b (S i) * (2 * INR (S i) / x) - vseq x a b i).
  { unfold vseq at 1. change (vs x a b (S (S i))) with (let '(p, q) := vs x a b (S i) in (q, q * (2 * INR (S (S i)) / x) - p)).
    change (vs x a b (S i)) with (let '(p, q) := vs x a b i in (q, q * (2 * INR (S i) / x) - p)).
    rewrite (vs_pair x a b i). reflexivity. }
  rewrite E. ring.
Qed.
Lemma forward_n x a b k lo : (1 <= lo)%nat -> (Z.of_nat (lo + k) <= 2 ^ 30)%Z ->
  for_n k lo (fun i '(a, b) => ii <- i32 (Z.of_nat i + Z.of_nat i) ;; Ok (b, b * (IZR ii / x) - a)) (vs x a b (lo - 1)) =
  Ok (vs x a b (lo - 1 + k)).
Proof.
  revert lo. induction k as [|k IH]; intros lo Hlo Hk.
  { simpl. now rewrite Nat.add_0_r. }
  cbn [for_n]. rewrite vs_pair at 1. cbv iota. rewrite i32_ok by lia. cbn [bind].
  specialize (IH (S lo)). rewrite <- (IH ltac:(lia) ltac:(lia)) || idtac.
  replace (lo - 1 + S k)%nat with (S lo - 1 + k)%nat by lia.
  rewrite <- IH by lia. f_equal. replace (S lo - 1)%nat with (S (lo - 1)) by lia.
  cbn [vs]. rewrite (vs_pair x a b (lo - 1)). replace (S (lo - 1)) with lo by lia.
  f_equal. rewrite INR_IZR_INZ, <- mult_IZR. replace (2 * Z.of_nat lo)%Z with (Z.of_nat lo + Z.of_nat lo)%Z by lia.
  reflexivity.
Qed.
Lemma forward_ok nn x a b : (1 <= nn <= 2 ^ 30)%Z ->
  forward nn x a b = Ok (vseq x a b (Z.to_nat nn - 1), vseq x a b (Z.to_nat nn)).
Proof.
  intros H. unfold forward, for_range. change (a, b) with (vs x a b (1 - 1)). rewrite forward_n by lia.
  rewrite vs_pair. f_equal. f_equal; f_equal; lia.
Qed.

(** For orders up to the argument (below 2^302), the results are the solution of the recurrence that starts with
    J0(x) and J1(x): J(n+1) = (2 n / x) J(n) - J(n-1). *)
Theorem C102_jn_forward : forall x : R, 2 <= x < 2 ^ 302 -> exists v : nat -> R,
  Fin (v 0%nat) = j0 (Fin x) /\ Fin (v 1%nat) = j1 (Fin x) /\ (forall m, recurrence x m v) /\
  forall fuel (n : Z), (0 <= n <= 2 ^ 30)%Z -> IZR n <= x -> jn fuel n (Fin x) = Ok (Fin (v (Z.to_nat n))).
Proof.
  intros x Hx.
  destruct (C102_hankel_form x ltac:(lra)) as (HJ0 & _ & HJ1 & _). cbv zeta in HJ0, HJ1.
  exists (vseq x (fin (j0 (Fin x))) (fin (j1 (Fin x)))).
  assert (A : Fin (fin (j0 (Fin x))) = j0 (Fin x)) by (rewrite HJ0; reflexivity).
  assert (B : Fin (fin (j1 (Fin x))) = j1 (Fin x)) by (rewrite HJ1; reflexivity).
  splits; auto.
  - intros m. apply vseq_rec.
  - intros fuel n Hn Hx'.
    destruct (Z.eq_dec n 0) as [->|N0].
    { change (jn fuel 0 (Fin x)) with (Ok (j0 (Fin x))). rewrite <- A. reflexivity. }
    destruct (Z.eq_dec n 1) as [->|N1].
    { rewrite jn_1, <- B. reflexivity. }
    rewrite jn_unfold by (lia || lra). rewrite Z.abs_eq by lia. rewrite Rabs_right by lra.
    replace (n <? 0)%Z with false by (symmetry; apply Z.ltb_ge; lia).
    replace (Rltb x 0) with false by (symmetry; apply Rltb_false; lra). cbn [xorb andb].
    unfold to_xr, jn_pos.
    replace (Rleb (IZR n) x) with true by (symmetry; now apply Rleb_true).
    replace (Rleb two_302 x) with false by (symmetry; apply Rleb_false; unfold two_302; lra).
    rewrite forward_ok by lia. reflexivity.
Qed.

(** descending solution: u 0 = c(m+1) = 0, u 1 = c(m) = 1, and c(i-1) = (2 i / x) c(i) - s c(i+1) *)
Fixpoint us (s x : R) (m j : nat) : R * R :=
  match j with O => (0, 1) | S j' => let '(p, q) := us s x m j' in (q, 2 * INR (m - j') / x * q - s * p) end.
Definition useq s x m j := fst (us s x m j).
Lemma us_pair s x m j : us s x m j = (useq s x m j, useq s x m (S j)).
Proof. unfold useq. simpl. destruct (us s x m j). reflexivity. Qed.
Lemma useq_SS s x m j : useq s x m (S (S j)) = 2 * INR (m - j) / x * useq s x m (S j) - s * useq s x m j.
Proof.
  unfold useq at 1. change (us s x m (S (S j))) with (let '(p, q) := us s x m (S j) in (q, 2 * INR (m - S j) / x * q - s * p)).
  change (us s x m (S j)) with (let '(p, q) := us s x m j in (q, 2 * INR (m - j) / x * q - s * p)).
  rewrite us_pair. reflexivity.
Qed.
Definition desc s x m (i : nat) : R := useq s x m (m + 1 - i).
Lemma desc_top s x m : desc s x m (m + 1) = 0 /\ desc s x m m = 1.
Proof. unfold desc. rewrite Nat.sub_diag. replace (m + 1 - m)%nat with 1%nat by lia. auto. Qed.
Lemma desc_step s x m i : (1 <= i <= m)%nat -> desc s x m (i - 1) = 2 * INR i / x * desc s x m i - s * desc s x m (i + 1).
Proof.
  intros Hi. unfold desc. replace (m + 1 - (i - 1))%nat with (S (S (m - i))) by lia.
  rewrite useq_SS. replace (m - (m - i))%nat with i by lia. replace (S (m - i)) with (m + 1 - i)%nat by lia.
  replace (m - i)%nat with (m + 1 - (i + 1))%nat by lia. reflexivity.
Qed.

Section Miller.
Variables (x : R) (n m : nat).
Hypothesis Hx : 0 < x.
Hypothesis Hxn : x < INR n.
Hypothesis Hnm : (1 <= n <= m)%nat.
Notation c := (desc 1 x m).

Lemma ratio_gt2 p : (n <= p)%nat -> 2 < 2 * INR p / x.
Proof.
  intros Hp. apply le_INR in Hp. apply Rmult_lt_reg_r with x; auto. unfold Rdiv. rewrite Rmult_assoc, Rinv_l by lra. lra.
Qed.
(** from order m down to order n - 1 the descending solution is positive and grows *)
Lemma desc_pos d : (d <= m + 1 - n)%nat -> 0 <= c (m + 1 - d) /\ c (m + 1 - d) < c (m - d).
Proof.
  destruct (desc_top 1 x m) as [T0 T1].
  induction d as [|d IH]; intros Hd.
  { rewrite !Nat.sub_0_r, T0, T1. lra. }
  destruct IH as [P Q]; [lia|].
  replace (m + 1 - S d)%nat with (m - d)%nat by lia. replace (m - S d)%nat with (m - d - 1)%nat by lia.
  rewrite desc_step by lia. replace (m - d + 1)%nat with (m + 1 - d)%nat by lia.
  pose proof (ratio_gt2 (m - d) ltac:(lia)). split; [lra|]. nra.
Qed.
Lemma desc_pos' p : (n - 1 <= p <= m)%nat -> 0 < c p.
Proof. intros Hp. pose proof (desc_pos (m - p) ltac:(lia)) as [A B]. replace (m - (m - p))%nat with p in B by lia. lra. Qed.

Lemma fraction_spec fuel p : (n - 1 <= p <= m)%nat -> (p + 1 - n <= fuel)%nat ->
  fraction fuel x (Z.of_nat n + Z.of_nat n) (2 * Z.of_nat p) (c (p + 1) / c p) = c n / c (n - 1).
Proof.
  revert p. induction fuel as [|fuel IH]; intros p Hp Hf; cbn [fraction].
  - assert (p = n - 1)%nat by lia. subst p. replace (n - 1 + 1)%nat with n by lia.
    destruct (Z.leb_spec (Z.of_nat n + Z.of_nat n) (2 * Z.of_nat (n - 1))); auto.
  - destruct (Z.leb_spec (Z.of_nat n + Z.of_nat n) (2 * Z.of_nat p)).
    + pose proof (desc_pos' p ltac:(lia)) as P. pose proof (desc_pos' (p - 1) ltac:(lia)) as P'.
      replace (2 * Z.of_nat p - 2)%Z with (2 * Z.of_nat (p - 1))%Z by lia.
      rewrite <- (IH (p - 1)%nat) by lia. replace (p - 1 + 1)%nat with p by lia. f_equal.
      pose proof (desc_step 1 x m p ltac:(lia)) as S. rewrite S in P' |- *.
      rewrite mult_IZR, <- INR_IZR_INZ. 
      assert (N : 2 * INR p / x - c (p + 1) / c p = (2 * INR p / x * c p - 1 * c (p + 1)) / c p) by (field; lra).
      rewrite N. clear N S. set (d := 2 * INR p / x * c p - 1 * c (p + 1)) in *. field. split; lra.
    + assert (p = n - 1)%nat by lia. subst p. replace (n - 1 + 1)%nat with n by lia. reflexivity.
Qed.

Lemma backward_spec scale fuel i s : (i <= n - 1)%nat -> (i <= fuel)%nat -> s <> 0 ->
  exists s' a, s' <> 0 /\
    backward fuel x scale (Z.of_nat i) (s * c (i + 1)) (s * c i) (s * c n) = (a, s' * c 0%nat, s' * c n).
Proof.
  revert i s. induction fuel as [|fuel IH]; intros i s Hi Hf Hs.
  { assert (i = 0)%nat by lia. subst i. exists s, (s * c 1%nat). split; auto. }
  destruct i as [|i].
  { exists s, (s * c 1%nat). split; auto. }
  cbn [backward]. replace (0 <? Z.of_nat (S i))%Z with true by (symmetry; apply Z.ltb_lt; lia).
  assert (B : s * c (S i) * IZR (Z.of_nat (S i) + Z.of_nat (S i)) / x - s * c (S i + 1) = s * c i).
  { replace i with (S i - 1)%nat at 5 by lia. rewrite desc_step by lia.
    replace (Z.of_nat (S i) + Z.of_nat (S i))%Z with (2 * Z.of_nat (S i))%Z by lia.
    rewrite mult_IZR, <- INR_IZR_INZ. field. lra. }
  rewrite B. replace (Z.of_nat (S i) - 1)%Z with (Z.of_nat i) by lia.
  replace (S i) with (i + 1)%nat by lia.
  destruct (scale && Rltb (10 ^ 100) (s * c i)) eqn:E.
  - apply andb_prop in E as [_ E]. apply Rltb_true in E.
    assert (0 < 10 ^ 100) by (apply pow_lt; lra).
    assert (Hc : c i <> 0) by (intros Z; rewrite Z, Rmult_0_r in E; lra).
    assert (Hs' : / c i <> 0) by (now apply Rinv_neq_0_compat).
    destruct (IH i (/ c i)) as (s' & a & S' & R'); auto; try lia.
    exists s', a. split; auto. rewrite <- R'. f_equal; field; auto.
  - apply IH; auto; lia.
Qed.
End Miller.

Lemma count_ok h fuel k q0 z q1 : 0 < h -> 2 < z -> IZR k + 1 < q0 -> q0 + 1 < q1 -> (1 <= k)%Z -> (10 ^ 9 - k <= Z.of_nat fuel)%Z ->
  (k <= 10 ^ 9)%Z ->
  exists k', count_terms fuel h q0 z q1 k = Ok k' /\ (k <= k' <= 10 ^ 9)%Z.
Proof.
  intros Hh. revert k q0 z q1. induction fuel as [|fuel IH]; intros k q0 z q1 Hz Hq Hq1 Hk Hf Hb; cbn [count_terms].
  - assert (k = 10 ^ 9)%Z by lia. subst k.
    destruct (Rltb_spec q1 (10 ^ 9)) as [L|L]; [|eexists; split; [reflexivity|lia]].
    exfalso. change (10 ^ 9)%Z with 1000000000%Z in Hq. lra.
  - destruct (Rltb_spec q1 (10 ^ 9)) as [L|L]; [|eexists; split; [reflexivity|lia]].
    assert (k + 2 < 10 ^ 9)%Z. { change (10 ^ 9)%Z with 1000000000%Z. apply lt_IZR. rewrite plus_IZR. lra. }
    rewrite i32_ok by lia. cbn [bind].
    destruct (IH (k + 1)%Z q1 (z + h) ((z + h) * q1 - q0)) as (k' & E & B); try lia; try lra.
    + rewrite plus_IZR. lra.
    + assert (0 <= IZR k) by (apply IZR_le; lia). nra.
    + exists k'. split; auto. lia.
Qed.

(** For orders above the argument (at least 2^-29), the result is Jn(x) = J0(x) c(n) / c(0), where c is the solution of
    the recurrence that vanishes at some order above n: Miller's algorithm, whatever the rescalings on the way.
    No i32 operation overflows and the loop that counts the terms ends after at most 10^9 rounds. *)
Theorem C102_jn_backward : forall (fuel : nat) (n : Z) (x : R), (10 ^ 9 <= Z.of_nat fuel)%Z ->
  (2 <= n <= 70000000)%Z -> / 2 ^ 29 <= x < IZR n ->
  exists (v : R) (m : nat) (c : nat -> R), jn fuel n (Fin x) = Ok (Fin v) /\
    (Z.to_nat n < m)%nat /\ recurrence x m c /\ c (m + 1)%nat = 0 /\
    (forall p, (Z.to_nat n - 1 <= p <= m)%nat -> 0 < c p) /\
    (c 0%nat <> 0 -> exists b : R, j0 (Fin x) = Fin b /\ v = b * (c (Z.to_nat n) / c 0%nat)).
Proof.
  intros fuel n x Hf Hn Hx.
  assert (Hp : 0 < / 2 ^ 29) by (apply Rinv_0_lt_compat, pow_lt; lra).
  assert (Hx0 : 0 < x) by lra.
  assert (Hn2 : 2 < IZR (n + n) / x).
  { apply Rmult_lt_reg_r with x; auto. unfold Rdiv. rewrite Rmult_assoc, Rinv_l by lra. rewrite plus_IZR. lra. }
  assert (Hh : 0 < 2 / x) by (apply Rdiv_lt_0_compat; lra).
  destruct (count_ok (2 / x) fuel 1 (IZR (n + n) / x) (IZR (n + n) / x + 2 / x)
      (IZR (n + n) / x * (IZR (n + n) / x + 2 / x) - 1)) as (k & Ek & Bk); try lia; try lra; try nra.
  rewrite jn_unfold by (lia || lra). rewrite Z.abs_eq by lia. rewrite Rabs_right by lra.
  replace (n <? 0)%Z with false by (symmetry; apply Z.ltb_ge; lia).
  replace (Rltb x 0) with false by (symmetry; apply Rltb_false; lra). cbn [xorb andb].
  unfold jn_pos.
  replace (Rleb (IZR n) x) with false by (symmetry; apply Rleb_false; lra).
  replace (Rltb x two_m29) with false by (symmetry; apply Rltb_false; unfold two_m29; lra).
  rewrite i32_ok by lia. cbn [bind]. rewrite Ek. cbn [bind]. rewrite i32_ok by lia. cbn [bind].
  rewrite i32_ok by lia. cbn [bind]. cbv zeta.
  set (N := Z.to_nat n). set (m := (N + Z.to_nat k)%nat).
  assert (HN : Z.of_nat N = n) by lia.
  assert (HxN : x < INR N) by (rewrite INR_IZR_INZ, HN; lra).
  destruct (desc_top 1 x m) as [T0 T1].
  assert (HP : forall p, (N - 1 <= p <= m)%nat -> 0 < desc 1 x m p) by (intros p Hp'; apply (desc_pos' x N m); auto; lia).
  set (t := fraction (S (Z.to_nat k)) x (n + n) (2 * (n + k)) 0).
  assert (Ht : t = desc 1 x m N / desc 1 x m (N - 1)).
  { unfold t. rewrite <- (fraction_spec x N m Hx0 HxN ltac:(lia) (S (Z.to_nat k)) m) by lia.
    rewrite T0, T1. unfold Rdiv at 1. rewrite Rmult_0_l. f_equal; lia. }
  pose proof (HP N ltac:(lia)) as PN. pose proof (HP (N - 1)%nat ltac:(lia)) as PN1.
  set (scale := negb (Rltb (IZR n * ln (Rabs (2 * IZR n / x))) lower_exp)).
  destruct (backward_spec x N m Hx0 ltac:(lia) scale N (N - 1)%nat (/ desc 1 x m (N - 1)) ltac:(lia) ltac:(lia))
    as (s & a & Hs & Eb).
  { apply Rinv_neq_0_compat. lra. }
  replace (N - 1 + 1)%nat with N in Eb by lia.
  replace (/ desc 1 x m (N - 1) * desc 1 x m N) with t in Eb by (rewrite Ht; field; lra).
  replace (/ desc 1 x m (N - 1) * desc 1 x m (N - 1)) with 1 in Eb by (field; lra).
  replace (Z.of_nat (N - 1)) with (n - 1)%Z in Eb by lia.
  rewrite Eb. unfold to_xr. cbn [bind].
  eexists _, m, (desc 1 x m). split; [reflexivity|]. splits; auto; try lia.
  - intros i Hi. rewrite desc_step by lia. ring.
  - intros H0.
    assert (J : exists b, j0 (Fin x) = Fin b).
    { unfold bessel_j0. destruct (Reqb x 0); eauto. destruct (Rleb 2 (Rabs x)).
      - destruct (phase0 (Rabs x)). destruct (Rltb two_129 (Rabs x)); eauto.
      - destruct (Rltb (Rabs x) two_m13). + destruct (Rltb (Rabs x) two_m27); eauto.
        + destruct (Rltb (Rabs x) 1); eauto. }
    destruct J as [b J]. exists b. split; auto. rewrite J. cbn [fin]. field. auto.
Qed.

(** For an argument below 2^-29: the first term (x/2)^n / n! of the series, and zero for orders above 33 *)
Theorem C102_jn_tiny : forall fuel (n : Z) (x : R), (2 <= n < 2 ^ 31)%Z -> 0 < x < / 2 ^ 29 ->
  jn fuel n (Fin x) = Ok (Fin (if (n <=? 33)%Z then (x / 2) ^ Z.to_nat n / INR (fact (Z.to_nat n)) else 0)).
Proof.
  intros fuel n x Hn Hx. rewrite jn_unfold by (lia || lra). rewrite Z.abs_eq by lia. rewrite Rabs_right by lra.
  replace (n <? 0)%Z with false by (symmetry; apply Z.ltb_ge; lia).
  replace (Rltb x 0) with false by (symmetry; apply Rltb_false; lra). cbn [xorb andb].
  unfold to_xr, jn_pos.
  assert (2 <= IZR n) by (apply IZR_le; lia).
  assert (/ 2 ^ 29 < 1) by lra.
  replace (Rleb (IZR n) x) with false by (symmetry; apply Rleb_false; lra).
  replace (Rltb x two_m29) with true by (symmetry; apply Rltb_true; unfold two_m29; lra).
  destruct (Z.ltb_spec 33 n), (Z.leb_spec n 33); try lia; [reflexivity|].
  unfold first_term.
  assert (G : forall k lo, (1 <= lo)%nat ->
    for_n k lo (fun i '(a, b) => Ok (a * INR i, b * (x * (1 / 2)))) (INR (fact (lo - 1)), (x / 2) ^ (lo - 1)) =
    Ok (INR (fact (lo - 1 + k)), (x / 2) ^ (lo - 1 + k))).
  { induction k as [|k IH]; intros lo Hlo; [simpl; now rewrite Nat.add_0_r|].
    cbn [for_n bind]. replace (lo - 1 + S k)%nat with (S lo - 1 + k)%nat by lia. rewrite <- IH by lia. f_equal.
    destruct lo as [|lo]; [lia|]. replace (S lo - 1)%nat with lo by lia. replace (S (S lo) - 1)%nat with (S lo) by lia.
    change (fact (S lo)) with (S lo * fact lo)%nat. rewrite mult_INR. f_equal; [ring|]. simpl. field. }
  unfold for_range.
  replace (1, x * (1 / 2)) with (INR (fact (2 - 1)), (x / 2) ^ (2 - 1)) by (f_equal; simpl; field).
  rewrite G by lia. cbn [bind]. replace (2 - 1 + (Z.to_nat (n + 1) - 2))%nat with (Z.to_nat n) by lia. reflexivity.
Qed.

Lemma land3 n : Z.land n 3 = (n mod 4)%Z.
Proof. change 3%Z with (Z.ones 2). rewrite Z.land_ones by lia. reflexivity. Qed.
Lemma trig_order n x : (0 <= n)%Z ->
  cos (x - (2 * IZR n + 1) * PI / 4) = match Z.land n 3 with
     | 0%Z => cos x + sin x | 1%Z => - cos x + sin x | 2%Z => - cos x - sin x | _ => cos x - sin x end * / sqrt 2 /\
  sin (x - (2 * IZR n + 1) * PI / 4) = match Z.land n 3 with
     | 0%Z => sin x - cos x | 1%Z => - sin x - cos x | 2%Z => - sin x + cos x | _ => sin x + cos x end * / sqrt 2.
Proof.
  intros Hn. rewrite land3.
  assert (D := Z.div_mod n 4 ltac:(lia)). assert (B := Z.mod_pos_bound n 4 ltac:(lia)).
  set (q := (n / 4)%Z) in *. assert (0 <= q)%Z by (subst q; apply Z.div_pos; lia). set (r := (n mod 4)%Z) in *.
  assert (E : x - (2 * IZR r + 1) * PI / 4 = x - (2 * IZR n + 1) * PI / 4 + 2 * INR (Z.to_nat q) * PI).
  { rewrite INR_IZR_INZ, Z2Nat.id by auto. rewrite D, plus_IZR, mult_IZR. field. }
  rewrite <- (cos_period (x - (2 * IZR n + 1) * PI / 4) (Z.to_nat q)), <- (sin_period (x - (2 * IZR n + 1) * PI / 4) (Z.to_nat q)), <- E.
  assert (R : (r = 0 \/ r = 1 \/ r = 2 \/ r = 3)%Z) by lia.
  destruct R as [-> | [-> | [-> | ->]]].
  - replace (x - (2 * 0 + 1) * PI / 4) with (x - PI / 4) by field. rewrite cos_pi4, sin_pi4. split; ring.
  - replace (x - (2 * 1 + 1) * PI / 4) with (x - 3 * PI / 4) by field. rewrite cos_3pi4, sin_3pi4. split; ring.
  - replace (x - (2 * 2 + 1) * PI / 4) with (x - 3 * PI / 4 - PI / 2) by field.
    rewrite cos_shift, sin_shift, sin_3pi4, cos_3pi4. split; ring.
  - replace (x - (2 * 3 + 1) * PI / 4) with (x - 3 * PI / 4 - PI / 2 - PI / 2) by field.
    rewrite cos_shift, sin_shift, sin_shift, cos_shift, sin_3pi4, cos_3pi4. split; ring.
Qed.

(** From 2^302 on, Jn and Yn are the leading term of the asymptotic form, sqrt(2/(pi x)) cos (or sin) of x - (2n+1) pi/4 *)
Theorem C102_large_argument : forall fuel (n : Z) (x : R), (2 <= n < 2 ^ 31)%Z -> 2 ^ 302 <= x ->
  jn fuel n (Fin x) = Ok (Fin (sqrt (2 / (PI * x)) * cos (x - (2 * IZR n + 1) * PI / 4))) /\
  yn n (Fin x) = Ok (Fin (sqrt (2 / (PI * x)) * sin (x - (2 * IZR n + 1) * PI / 4))).
Proof.
  intros fuel n x Hn Hx.
  assert (Hb : IZR (2 ^ 31) <= 2 ^ 302) by (rewrite pow_IZR; apply IZR_le; apply Z.leb_le; vm_compute; reflexivity).
  assert (IZR n <= IZR (2 ^ 31)) by (apply IZR_le; lia).
  assert (2 <= IZR n) by (apply IZR_le; lia).
  destruct (trig_order n x ltac:(lia)) as [TC TS].
  rewrite TC, TS, !amp_cos by lra. split.
  - rewrite jn_unfold by (lia || lra). rewrite Z.abs_eq by lia. rewrite Rabs_right by lra.
    replace (n <? 0)%Z with false by (symmetry; apply Z.ltb_ge; lia).
    replace (Rltb x 0) with false by (symmetry; apply Rltb_false; lra). cbn [xorb andb].
    unfold to_xr, jn_pos.
    replace (Rleb (IZR n) x) with true by (symmetry; apply Rleb_true; lra).
    replace (Rleb two_302 x) with true by (symmetry; now apply Rleb_true). reflexivity.
  - unfold bessel_yn. cbv zeta.
    replace (Rltb x 0) with false by (symmetry; apply Rltb_false; lra).
    replace (n =? 0)%Z with false by (symmetry; apply Z.eqb_neq; lia).
    replace (Reqb x 0) with false by (symmetry; apply Reqb_false; lra).
    replace (n <? 0)%Z with false by (symmetry; apply Z.ltb_ge; lia). cbn [bind].
    replace (n =? 1)%Z with false by (symmetry; apply Z.eqb_neq; lia).
    replace (Rleb two_302 x) with true by (symmetry; now apply Rleb_true). reflexivity.
Qed.

(* ------------------------------------------------------------------ *)
(** * The second kind *)

Lemma y0_fin x : 0 < x -> exists b, y0 (Fin x) = Fin b.
Proof.
  intros Hx. unfold bessel_y0.
  replace (Rltb x 0) with false by (symmetry; apply Rltb_false; lra).
  replace (Reqb x 0) with false by (symmetry; apply Reqb_false; lra).
  destruct (Rleb 2 x). { destruct (phase0 x). destruct (Rltb two_129 x); eauto. }
  destruct (Rleb x two_m27); eauto.
  unfold bessel_j0. replace (Reqb x 0) with false by (symmetry; apply Reqb_false; lra).
  destruct (Rleb 2 (Rabs x)). { destruct (phase0 (Rabs x)). destruct (Rltb two_129 (Rabs x)); eauto. }
  destruct (Rltb (Rabs x) two_m13). { destruct (Rltb (Rabs x) two_m27); eauto. }
  destruct (Rltb (Rabs x) 1); eauto.
Qed.
Lemma y1_fin x : 0 < x -> exists b, y1 (Fin x) = Fin b.
Proof.
  intros Hx. unfold bessel_y1.
  replace (Rltb x 0) with false by (symmetry; apply Rltb_false; lra).
  replace (Reqb x 0) with false by (symmetry; apply Reqb_false; lra).
  destruct (Rleb 2 x). { destruct (phase1 x). destruct (Rltb two_129 x); eauto. }
  destruct (Rleb x two_m54); eauto.
  unfold bessel_j1. replace (Reqb x 0) with false by (symmetry; apply Reqb_false; lra).
  replace (Rltb x 0) with false by (symmetry; apply Rltb_false; lra).
  destruct (Rleb 2 x). { destruct (phase1 x). eauto. }
  destruct (Rltb x two_m27); eauto.
Qed.

(** For 0 < x < 2^302 the results are the solution of the recurrence that starts with Y0(x) and Y1(x) *)
Theorem C102_yn_forward : forall x : R, 0 < x < 2 ^ 302 -> exists v : nat -> R,
  Fin (v 0%nat) = y0 (Fin x) /\ Fin (v 1%nat) = y1 (Fin x) /\ (forall m, recurrence x m v) /\
  forall n : Z, (0 <= n <= 2 ^ 30)%Z -> yn n (Fin x) = Ok (Fin (v (Z.to_nat n))).
Proof.
  intros x Hx. destruct (y0_fin x) as [b0 E0]; [lra|]. destruct (y1_fin x) as [b1 E1]; [lra|].
  exists (vseq x b0 b1). splits; auto.
  - intros m. apply vseq_rec.
  - intros n Hn. unfold bessel_yn. cbv zeta.
    replace (Rltb x 0) with false by (symmetry; apply Rltb_false; lra).
    destruct (Z.eqb_spec n 0) as [->|N0]. { rewrite E0. reflexivity. }
    replace (Reqb x 0) with false by (symmetry; apply Reqb_false; lra).
    replace (n <? 0)%Z with false by (symmetry; apply Z.ltb_ge; lia). cbn [bind].
    destruct (Z.eqb_spec n 1) as [->|N1]. { rewrite E1. reflexivity. }
    replace (Rleb two_302 x) with false by (symmetry; apply Rleb_false; unfold two_302; lra).
    rewrite E0, E1. cbn [fin]. rewrite forward_ok by lia. reflexivity.
Qed.

(** Y(-n)(x) = (-1)^n Yn(x), also for NaN, the infinities and zero *)
Theorem C102_yn_reflection : forall (n : Z) (x : xr), (0 <= n < 2 ^ 31)%Z ->
  match x with Inf false => True | _ => yn (- n) x = signed n (yn n x) end.
Proof.
  intros n x Hn. unfold signed. destruct x as [|s|x].
  - simpl. destruct (Z.odd n); reflexivity.
  - destruct s; auto. simpl. destruct (Z.odd n); reflexivity.
  - unfold bessel_yn. cbv zeta.
    destruct (Rltb_spec x 0). { destruct (Z.odd n); reflexivity. }
    destruct (Z.eqb_spec n 0) as [->|N0]. { reflexivity. }
    replace (- n =? 0)%Z with false by (symmetry; apply Z.eqb_neq; lia).
    replace (n <? 0)%Z with false by (symmetry; apply Z.ltb_ge; lia).
    replace (- n <? 0)%Z with true by (symmetry; apply Z.ltb_lt; lia).
    rewrite land1, Z.odd_opp. destruct (Reqb_spec x 0) as [->|N].
    { simpl. destruct (Z.odd n); reflexivity. }
    rewrite Z.opp_involutive, i32_ok by lia. cbn [bind]. rewrite land1.
    destruct (Z.eqb_spec n 1) as [->|N1]; [reflexivity|].
    match goal with |- context [bind ?e _] => destruct e end; destruct (Z.odd n); reflexivity.
Qed.

(** the documented special values *)
Theorem C102_special_values : forall fuel (n : Z) (s : bool),
  j0 NaN = NaN /\ j0 (Inf s) = Fin 0 /\ j0 (Fin 0) = Fin 1 /\ j1 NaN = NaN /\ j1 (Inf s) = Fin 0 /\ j1 (Fin 0) = Fin 0 /\
  jn fuel n NaN = Ok NaN /\ jn fuel n (Inf s) = Ok (Fin 0) /\ (n <> 0%Z -> jn fuel n (Fin 0) = Ok (Fin 0)) /\
  yn n NaN = Ok NaN /\ yn n (Inf false) = Ok (Fin 0) /\ (forall x, x < 0 -> yn n (Fin x) = Ok NaN) /\
  yn n (Fin 0) = Ok (Inf (negb ((n <? 0)%Z && Z.odd n))).
Proof.
  intros fuel n s.
  assert (E : Reqb 0 0 = true) by (apply Reqb_true; auto).
  assert (L : Rltb 0 0 = false) by (apply Rltb_false; lra).
  splits; try reflexivity; try (simpl; rewrite E; reflexivity).
  - intros Hn. simpl. rewrite E. destruct (Z.eqb_spec n 0); [contradiction|reflexivity].
  - intros x Hx. simpl. replace (Rltb x 0) with true by (symmetry; now apply Rltb_true). reflexivity.
  - unfold bessel_yn. rewrite L, E, land1. destruct (Z.eqb_spec n 0) as [->|N].
    + simpl. rewrite L, E. reflexivity.
    + destruct ((n <? 0)%Z && Z.odd n); reflexivity.
Qed.

(* ------------------------------------------------------------------ *)
(** * Findings on the order *)

(** FINDING: for order i32::MIN, `bessel_jn` and `bessel_yn` negate the order and panic (attempt to negate with overflow) at
    every argument but zero (bessel_n.rs:94, 301). *)
Theorem C102_min_order_refuted : forall fuel (x : R), 0 < x ->
  jn fuel (- 2 ^ 31) (Fin x) = Panic /\ yn (- 2 ^ 31) (Fin x) = Panic.
Proof.
  intros fuel x Hx. unfold bessel_jn, bessel_yn.
  replace (Reqb x 0) with false by (symmetry; apply Reqb_false; lra).
  replace (Rltb x 0) with false by (symmetry; apply Rltb_false; lra).
  rewrite (i32_bad (- - 2 ^ 31)) by lia. split; reflexivity.
Qed.
(** FINDING: for an order n with 2^30 <= n, `bessel_jn` computes n + n in i32 and panics for every argument from 2^-29
    up to n, although Jn(x) is zero to every digit there (bessel_n.rs:191). *)
Theorem C102_large_order_refuted : forall fuel (n : Z) (x : R), (2 ^ 30 <= n < 2 ^ 31)%Z -> / 2 ^ 29 <= x < IZR n ->
  jn fuel n (Fin x) = Panic.
Proof.
  intros fuel n x Hn Hx.
  assert (Hp : 0 < / 2 ^ 29) by (apply Rinv_0_lt_compat, pow_lt; lra).
  rewrite jn_unfold by (lia || lra). rewrite Z.abs_eq by lia. rewrite Rabs_right by lra.
  replace (n <? 0)%Z with false by (symmetry; apply Z.ltb_ge; lia).
  replace (Rltb x 0) with false by (symmetry; apply Rltb_false; lra). cbn [xorb andb].
  unfold to_xr, jn_pos.
  replace (Rleb (IZR n) x) with false by (symmetry; apply Rleb_false; lra).
  replace (Rltb x two_m29) with false by (symmetry; apply Rltb_false; unfold two_m29; lra).
  rewrite i32_bad by lia. reflexivity.
Qed.

(* ------------------------------------------------------------------ *)
(** * Modified functions *)

Variables i0_small i1_small i0_scaled i1_scaled k0 k1 : R -> R.
Variable fits : R -> bool.
Variable exponent : R -> Z.
Variable tiny : R.
Hypothesis tiny_pos : 0 <= tiny.
(** the value I0(x), |x| < 15, is representable *)
Hypothesis small_fits : forall x, Rabs x < 15 -> fits (i0_small (x * x)) = true.
Hypothesis one_fits : fits 1 = true.
Notation bi0 := (bessel_i0 i0_small i0_scaled).
Notation bi1 := (bessel_i1 i1_small i1_scaled).
Notation bin := (bessel_in i0_small i1_small i0_scaled i1_scaled fits exponent tiny).
Notation bkn := (bessel_kn k0 k1).

Lemma bi0_even x : bi0 (- x) = bi0 x.
Proof.
  unfold bessel_i0. rewrite Rabs_Ropp. replace (- x * - x) with (x * x) by ring.
  destruct (Reqb_spec x 0), (Reqb_spec (- x) 0); auto; lra.
Qed.
Lemma bi1_odd x : bi1 (- x) = - bi1 x.
Proof.
  unfold bessel_i1. rewrite Rabs_Ropp. replace (- x * - x) with (x * x) by ring.
  destruct (Reqb_spec x 0), (Reqb_spec (- x) 0); try lra.
  destruct (Rltb (Rabs x) 15); [ring|].
  destruct (Rltb_spec 0 x), (Rltb_spec 0 (- x)); lra.
Qed.
(** In(-x) = (-1)^n In(x) *)
Theorem C102_in_parity : forall (n : nat) (x : R), bin n (- x) = if Nat.odd n then - bin n x else bin n x.
Proof.
  intros n x. unfold bessel_in.
  destruct (Nat.eqb_spec n 0) as [->|N0]; [apply bi0_even|].
  destruct (Nat.eqb_spec n 1) as [->|N1]; [apply bi1_odd|].
  unfold miller_start. replace (- x * - x) with (x * x) by ring. rewrite Rabs_Ropp.
  destruct (Rleb_spec (x * x) tiny) as [_|T]; [destruct (Nat.odd n); ring|].
  rewrite bi0_even. destruct (miller _ _ _ _ _ _ _) as [[bip bi] ans].
  assert (x <> 0) by (intros ->; lra).
  destruct (Rltb_spec x 0), (Rltb_spec (- x) 0); try lra; destruct (Nat.odd n); simpl; ring.
Qed.

Lemma desc_i_pos x m : 0 < x -> forall d, (d <= m)%nat ->
  0 <= desc (-1) x m (m + 1 - d) /\ 0 < desc (-1) x m (m - d).
Proof.
  intros Hx. destruct (desc_top (-1) x m) as [T0 T1].
  induction d as [|d IH]; intros Hd.
  { rewrite !Nat.sub_0_r, T0, T1. lra. }
  destruct IH as [P Q]; [lia|].
  replace (m + 1 - S d)%nat with (m - d)%nat by lia. replace (m - S d)%nat with (m - d - 1)%nat by lia.
  rewrite desc_step by lia. replace (m - d + 1)%nat with (m + 1 - d)%nat by lia.
  assert (0 < 2 * INR (m - d) / x). { apply Rdiv_lt_0_compat; auto. apply Rmult_lt_0_compat; [lra|]. apply lt_0_INR. lia. }
  split; [lra|]. nra.
Qed.
Lemma miller_spec n x m : 0 < x -> (1 <= n <= m)%nat -> forall j s ans, (j <= m)%nat -> 0 < s ->
  ((j < n)%nat -> ans = s * desc (-1) x m n) ->
  exists s', 0 < s' /\ exists bip,
    miller exponent n (2 / x) j (s * desc (-1) x m (j + 1)) (s * desc (-1) x m j) ans =
    (bip, s' * desc (-1) x m 0, s' * desc (-1) x m n).
Proof.
  intros Hx Hn. induction j as [|j IH]; intros s ans Hj Hs Ha.
  { exists s. split; auto. eexists. cbn [miller]. rewrite Ha by lia. reflexivity. }
  cbn [miller].
  assert (B : s * desc (-1) x m (S j + 1) + INR (S j) * (2 / x) * (s * desc (-1) x m (S j)) = s * desc (-1) x m j).
  { replace j with (S j - 1)%nat at 4 by lia. rewrite desc_step by lia. field. lra. }
  rewrite B. replace (S j) with (j + 1)%nat by lia.
  assert (P : 0 < / 2 ^ 512) by (apply Rinv_0_lt_compat, pow_lt; lra).
  destruct (512 <? exponent (s * desc (-1) x m j))%Z.
  - replace (s * desc (-1) x m (j + 1) * / 2 ^ 512) with (s * / 2 ^ 512 * desc (-1) x m (j + 1)) by ring.
    replace (s * desc (-1) x m j * / 2 ^ 512) with (s * / 2 ^ 512 * desc (-1) x m j) by ring.
    apply IH; try lia. { now apply Rmult_lt_0_compat. }
    intros Hjn. destruct (Nat.eqb_spec (j + 1) n) as [<-|N]; auto. rewrite Ha by lia. ring.
  - apply IH; try lia; auto.
    intros Hjn. destruct (Nat.eqb_spec (j + 1) n) as [<-|N]; auto. apply Ha. lia.
Qed.

(** For n >= 2 and an argument that is not tiny, In(x) = I0(x) c(n) / c(0) up to the sign (-1)^n of a negative
    argument, where c is the positive solution of the recurrence of I that vanishes at some order above 2 max(n, min(|x|, 1400)),
    whatever the renormalisations, and whether or not I0(x) overflows. *)
Theorem C102_in_miller : forall (n : nat) (x : R), (2 <= n)%nat -> tiny < x * x ->
  exists (m : nat) (c : nat -> R), (2 * n <= m)%nat /\ 2 * (Rmin (Rabs x) 1400 - 1) <= INR m /\
    recurrence_i (Rabs x) m c /\ c (m + 1)%nat = 0 /\
    (forall p, (p <= m)%nat -> 0 < c p) /\
    bin n x = (if Rltb x 0 && Nat.odd n then -1 else 1) * (bi0 x * (c n / c 0%nat)).
Proof.
  intros n x Hn Hx.
  assert (N0 : x <> 0) by (intros ->; lra). assert (Ha := Rabs_pos_lt x N0).
  set (m := miller_start n x).
  assert (HM : (2 * Nat.max n (to_usize (Rmin (Rabs x) 1400)) <= m)%nat) by (unfold m, miller_start; lia).
  exists m, (desc (-1) (Rabs x) m). destruct (desc_top (-1) (Rabs x) m) as [T0 T1].
  assert (HP : forall p, (p <= m)%nat -> 0 < desc (-1) (Rabs x) m p).
  { intros p Hp. destruct (desc_i_pos (Rabs x) m Ha (m - p) ltac:(lia)) as [_ Q]. now replace (m - (m - p))%nat with p in Q by lia. }
  splits; auto; try lia.
  - assert (U : Rmin (Rabs x) 1400 - 1 <= INR (to_usize (Rmin (Rabs x) 1400))).
    { set (r := Rmin (Rabs x) 1400). assert (0 <= r) by (unfold r; apply Rmin_glb; lra).
      unfold to_usize. destruct (base_Int_part r) as [B1 B2].
      assert (0 <= Int_part r)%Z. { apply Z.lt_succ_r. apply lt_IZR. rewrite succ_IZR. lra. }
      rewrite INR_IZR_INZ, Z2Nat.id by auto. lra. }
    apply le_INR in HM. rewrite mult_INR in HM. change (INR 2) with 2 in HM.
    assert (INR (to_usize (Rmin (Rabs x) 1400)) <= INR (Nat.max n (to_usize (Rmin (Rabs x) 1400)))) by (apply le_INR; lia). lra.
  - intros i Hi. rewrite desc_step by lia. ring.
  - unfold bessel_in.
    replace (n =? 0)%nat with false by (symmetry; apply Nat.eqb_neq; lia).
    replace (n =? 1)%nat with false by (symmetry; apply Nat.eqb_neq; lia).
    replace (Rleb (x * x) tiny) with false by (symmetry; now apply Rleb_false).
    fold m.
    destruct (miller_spec n (Rabs x) m Ha ltac:(lia) m 1 0 ltac:(lia) ltac:(lra)) as (s & Hs & bip & E); [lia|].
    rewrite T0, T1, Rmult_0_r, Rmult_1_r in E. rewrite E.
    pose proof (HP 0%nat ltac:(lia)) as P0.
    assert (V : (if fits (bi0 x) || Rltb 1400 (Rabs x)
      then s * desc (-1) (Rabs x) m n * (bi0 x / (s * desc (-1) (Rabs x) m 0))
      else s * desc (-1) (Rabs x) m n / (s * desc (-1) (Rabs x) m 0) * exp (Rabs x / 2) *
           (i0_scaled (Rabs x) * exp (Rabs x / 2))) = bi0 x * (desc (-1) (Rabs x) m n / desc (-1) (Rabs x) m 0)).
    { destruct (fits (bi0 x) || Rltb 1400 (Rabs x)) eqn:Ef; [field; lra|].
      apply orb_false_elim in Ef as [Ef _]. unfold bessel_i0 in *.
      replace (Reqb x 0) with false in * by (symmetry; now apply Reqb_false).
      destruct (Rltb_spec (Rabs x) 15) as [L|L]; [rewrite small_fits in Ef by auto; discriminate|]. field. lra. }
    rewrite V. destruct (Rltb x 0 && Nat.odd n); ring.
Qed.

(** For a positive argument the results are the solution of the recurrence of K that starts with K0(x) and K1(x); they
    are positive, and v(i+2) > v(i), as soon as K0(x) and K1(x) are positive.  NaN for negative arguments, infinity at zero. *)
Theorem C102_kn : forall x : R, 0 < x -> exists v : nat -> R,
  v 0%nat = k0 x /\ v 1%nat = k1 x /\ recurrence_k x v /\
  (forall n : Z, (0 <= n)%Z -> bkn n (Fin x) = Ok (Fin (v (Z.to_nat n)))) /\
  (0 < k0 x -> 0 < k1 x -> forall i, 0 < v i < v (S (S i))).
Proof.
  intros x Hx.
  set (ks := fix ks (n : nat) : R * R := match n with O => (k0 x, k1 x) | S n' => let '(p, q) := ks n' in (q, p + INR n * (2 / x) * q) end).
  assert (KP : forall n, ks n = (fst (ks n), fst (ks (S n)))).
  { intros n. simpl. destruct (ks n). reflexivity. }
  assert (KS : forall n, fst (ks (S (S n))) = fst (ks n) + INR (S n) * (2 / x) * fst (ks (S n))).
  { intros n. change (ks (S (S n))) with (let '(p, q) := ks (S n) in (q, p + INR (S (S n)) * (2 / x) * q)).
    assert (E := KP n). change (ks (S n)) with (let '(p, q) := ks n in (q, p + INR (S n) * (2 / x) * q)).
    rewrite E. reflexivity. }
  exists (fun n => fst (ks n)). splits; auto.
  - intros i Hi. destruct i as [|i]; [lia|]. replace (S i - 1)%nat with i by lia. replace (S i + 1)%nat with (S (S i)) by lia.
    rewrite KS. field. lra.
  - intros n Hn. unfold bessel_kn. cbv zeta.
    replace (Rltb x 0) with false by (symmetry; apply Rltb_false; lra).
    replace (Reqb x 0) with false by (symmetry; apply Reqb_false; lra).
    destruct (Z.eqb_spec n 0) as [->|N0]; [reflexivity|].
    destruct (Z.eqb_spec n 1) as [->|N1]; [reflexivity|].
    assert (G : forall k lo, (1 <= lo)%nat ->
      for_n k lo (fun j '(bkm, bk) => Ok (bk, bkm + INR j * (2 / x) * bk)) (ks (lo - 1)%nat) = Ok (ks (lo - 1 + k)%nat)).
    { induction k as [|k IH]; intros lo Hlo; [simpl; now rewrite Nat.add_0_r|].
      cbn [for_n]. rewrite KP at 1. cbv iota. cbn [bind].
      replace (lo - 1 + S k)%nat with (S lo - 1 + k)%nat by lia. rewrite <- IH by lia. f_equal.
      replace (S lo - 1)%nat with (S (lo - 1)) by lia. rewrite (KP (S (lo - 1))), KS.
      replace (S (lo - 1)) with lo by lia. reflexivity. }
    unfold for_range. change (k0 x, k1 x) with (ks (1 - 1)%nat). rewrite G by lia. rewrite KP. cbn [bind].
    repeat f_equal. lia.
  - intros H0 H1.
    assert (P : forall i, 0 < fst (ks i) /\ 0 < fst (ks (S i))).
    { induction i as [|i [A B]]; [split; auto|]. split; auto. rewrite KS.
      assert (0 < INR (S i) * (2 / x)) by (apply Rmult_lt_0_compat; [apply lt_0_INR; lia | apply Rdiv_lt_0_compat; lra]). nra. }
    intros i. destruct (P i) as [A B]. split; auto. rewrite KS.
    assert (0 < INR (S i) * (2 / x)) by (apply Rmult_lt_0_compat; [apply lt_0_INR; lia | apply Rdiv_lt_0_compat; lra]). nra.
Qed.

End Bessel.

(* ------------------------------------------------------------------ *)
(** * Powers of the imaginary unit *)

(** z^n for a natural number *)
Fixpoint cpow (z : C) (n : nat) : C := match n with O => (1, 0) | S n' => Cmult z (cpow z n') end.

Lemma cpow_i4 x n : cpow (0, x) (4 + n) = Cmult (x ^ 4, 0) (cpow (0, x) n).
Proof.
  change (cpow (0, x) (4 + n)) with (Cmult (0, x) (Cmult (0, x) (Cmult (0, x) (Cmult (0, x) (cpow (0, x) n))))).
  destruct (cpow (0, x) n) as [a b]. unfold Cmult. simpl. f_equal; ring.
Qed.
Lemma cpow_i x : forall q r, (r < 4)%nat -> cpow (0, x) (4 * q + r) =
  let p := x ^ (4 * q + r) in match r with O => (p, 0) | S O => (0, p) | S (S O) => (- p, 0) | _ => (0, - p) end.
Proof.
  induction q as [|q IH]; intros r Hr.
  - destruct r as [|[|[|[|r]]]]; try lia; simpl; unfold Cmult; simpl; f_equal; ring.
  - replace (4 * S q + r)%nat with (4 + (4 * q + r))%nat by lia. rewrite cpow_i4, IH by auto.
    rewrite (pow_add x 4 (4 * q + r)). cbv zeta.
    destruct r as [|[|[|[|r]]]]; try lia; unfold Cmult; cbn [fst snd]; f_equal; ring.
Qed.
Lemma rem_cases n : (0 <= n)%Z -> exists q r, (r < 4)%nat /\ Z.to_nat n = (4 * q + r)%nat /\ Z.rem n 4 = Z.of_nat r.
Proof.
  intros Hn. exists (Z.to_nat (n / 4)), (Z.to_nat (n mod 4)).
  assert (B := Z.mod_pos_bound n 4 ltac:(lia)). assert (D := Z.div_mod n 4 ltac:(lia)).
  assert (0 <= n / 4)%Z by (apply Z.div_pos; lia).
  splits; try lia. rewrite Z.rem_mod_nonneg by lia. lia.
Qed.

(** (x i)^n for every order but i32::MIN: the natural power, or its inverse (x not zero) *)
Theorem C102_x_times_i_pow_n : forall (x : R) (n : Z), (- 2 ^ 31 < n < 2 ^ 31)%Z ->
  exists z, x_times_i_pow_n x n = Ok z /\
    ((0 <= n)%Z -> z = cpow (0, x) (Z.to_nat n)) /\
    ((n < 0)%Z -> x <> 0 -> Cmult z (cpow (0, x) (Z.to_nat (- n))) = (1, 0)).
Proof.
  intros x n Hn. unfold x_times_i_pow_n. cbv zeta.
  destruct (Z.eqb_spec n 0) as [->|N0].
  { eexists. splits; [reflexivity|auto|lia]. }
  destruct (Z.ltb_spec 0 n) as [P|P].
  - eexists. splits; [reflexivity| |lia]. intros _.
    destruct (rem_cases n ltac:(lia)) as (q & r & Hr & Eq & Er). rewrite Eq, Er, cpow_i by auto. cbv zeta. rewrite <- Eq.
    replace (powerRZ x n) with (x ^ Z.to_nat n) by (rewrite pow_powerRZ; f_equal; lia).
    destruct r as [|[|[|[|r]]]]; try lia; reflexivity.
  - rewrite i32_ok by lia. cbn [bind]. eexists. splits; [reflexivity|lia|]. intros _ Hx.
    destruct (rem_cases (- n) ltac:(lia)) as (q & r & Hr & Eq & Er). rewrite Eq, Er, cpow_i by auto. cbv zeta. rewrite <- Eq.
    assert (E : powerRZ x n * x ^ Z.to_nat (- n) = 1).
    { rewrite pow_powerRZ, Z2Nat.id by lia. rewrite <- powerRZ_add by auto. now replace (n + - n)%Z with 0%Z by lia. }
    destruct r as [|[|[|[|r]]]]; try lia; unfold Cmult; cbn [fst snd Z.of_nat Pos.of_succ_nat Pos.succ];
      f_equal; rewrite <- ?E; ring.
Qed.
(** i^n for every order but i32::MIN *)
Theorem C102_i_pow_n : forall n : Z, (- 2 ^ 31 < n < 2 ^ 31)%Z ->
  exists z, i_pow_n n = Ok z /\
    ((0 <= n)%Z -> z = cpow Ci (Z.to_nat n)) /\ ((n < 0)%Z -> Cmult z (cpow Ci (Z.to_nat (- n))) = (1, 0)).
Proof.
  intros n Hn. destruct (C102_x_times_i_pow_n 1 n Hn) as (z & E & A & B). unfold Ci.
  exists z. split; [|split; [auto|intros; apply B; auto; lra]].
  rewrite <- E. unfold i_pow_n, x_times_i_pow_n. cbv zeta.
  assert (P1 : forall k, powerRZ 1 k = 1).
  { intros [|k|k]; simpl; auto; rewrite pow1; auto. apply Rinv_1. }
  rewrite P1. destruct (n =? 0)%Z; auto.
Qed.
(** FINDING: `i_pow_n(i32::MIN)` and `x_times_i_pow_n(x, i32::MIN)` panic (attempt to negate with overflow), although
    i^n = 1 for this order (math/complex.rs:50, 109). *)
Theorem C102_i_pow_min_refuted : i_pow_n (- 2 ^ 31) = Panic /\ forall x, x_times_i_pow_n x (- 2 ^ 31) = Panic.
Proof.
  unfold i_pow_n, x_times_i_pow_n. rewrite (i32_bad (- - 2 ^ 31)) by lia. split; auto.
Qed.

(** The hypotheses can be met: order 3 at 5 (forward) and order 7 at 5 (backward) *)
Example C102_example : (2 <= 5 < 2 ^ 302) /\ IZR 3 <= 5 /\ (/ 2 ^ 29 <= 5 < IZR 7) /\ (0 < / 2 ^ 28 < / 2 ^ 27).
Proof.
  splits; lra.
Qed.
Example C102_example_i : i_pow_n (-3) = Ok (0, 1) /\ x_times_i_pow_n 2 3 = Ok (0, - (powerRZ 2 3)).
Proof. split; reflexivity. Qed.

Print Assumptions C102_hankel_form.
Print Assumptions C102_j0_even.
Print Assumptions C102_j1_odd.
Print Assumptions C102_j1_odd_refuted.
Print Assumptions C102_jn_parity.
Print Assumptions C102_jn_reflection.
Print Assumptions C102_jn_one.
Print Assumptions C102_jn_forward.
Print Assumptions C102_jn_backward.
Print Assumptions C102_jn_tiny.
Print Assumptions C102_large_argument.
Print Assumptions C102_yn_forward.
Print Assumptions C102_yn_reflection.
Print Assumptions C102_special_values.
Print Assumptions C102_min_order_refuted.
Print Assumptions C102_large_order_refuted.
Print Assumptions C102_in_parity.
Print Assumptions C102_in_miller.
Print Assumptions C102_kn.
Print Assumptions C102_x_times_i_pow_n.
Print Assumptions C102_i_pow_n.
Print Assumptions C102_i_pow_min_refuted.
