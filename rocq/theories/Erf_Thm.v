(** C106: the error functions and their inverses. *)
From Coq Require Import List Bool ZArith Lia Reals Lra.
From Flocq Require Import IEEE754.BinarySingleNaN.
From Verif Require Import Base RBase Bessel_Model Check_Model Erf_Model.
Import ListNotations.
Local Open Scope R_scope.

(* ------------------------------------------------------------------ *)
(** * Nested products *)
Lemma horner_pos cs s : 0 <= s -> Forall (fun c => 0 <= c) cs -> 0 <= horner cs s.
Proof. intros S. induction 1 as [|c cs C _ IH]; cbn [horner fold_right]; [lra|]. fold (horner cs s). nra. Qed.
Lemma horner_neg cs s : 0 <= s -> Forall (fun c => c <= 0) cs -> horner cs s <= 0.
Proof. intros S. induction 1 as [|c cs C _ IH]; cbn [horner fold_right]; [lra|]. fold (horner cs s). nra. Qed.
Lemma horner_bound cs s M : 0 <= M -> Rabs s <= 3 / 4 -> Forall (fun c => - M <= c <= M) cs -> - (4 * M) <= horner cs s <= 4 * M.
Proof.
  intros HM S. assert (S' : -3 / 4 <= s <= 3 / 4) by (unfold Rabs in S; destruct (Rcase_abs s); lra).
  induction 1 as [|c cs C _ IH]; cbn [horner fold_right]; [lra|]. fold (horner cs s). nra.
Qed.
Lemma horner_bound4 cs s M : 0 <= M -> Rabs s <= 1 / 4 -> Forall (fun c => - M <= c <= M) cs -> - (4 / 3 * M) <= horner cs s <= 4 / 3 * M.
Proof.
  intros HM S. assert (S' : -1 / 4 <= s <= 1 / 4) by (unfold Rabs in S; destruct (Rcase_abs s); lra).
  induction 1 as [|c cs C _ IH]; cbn [horner fold_right]; [lra|]. fold (horner cs s). nra.
Qed.
Lemma horner_cons c cs s : horner (c :: cs) s = c + s * horner cs s.
Proof. reflexivity. Qed.
Ltac fa := repeat (apply Forall_cons; [lra|]); apply Forall_nil.

(** the rational function below 0.84375 *)
Lemma near_bound x : 0 < x < 84375 / 100000 -> - 1 / 2 < horner PP (x * x) / horner QQ (x * x) < 13 / 100.
Proof.
  intros X. set (z := x * x). assert (Z : 0 < z < 712 / 1000) by (unfold z; split; nra).
  assert (S : 1 <= horner QQ z).
  { unfold QQ. rewrite horner_cons. assert (0 <= z * horner (tl QQ) z); [|unfold QQ in *; cbn [tl] in *; lra].
    apply Rmult_le_pos; [lra|]. unfold QQ; cbn [tl]. rewrite !horner_cons. cbn [horner fold_right].
    assert (0 <= 132494738004321644526 / 10 ^ 24 + z * (- (39602282787753681232 / 10 ^ 25) + z * 0)) by nra.
    repeat first [assumption | apply Rplus_le_le_0_compat; [lra|]; apply Rmult_le_pos; [lra|]]. }
  assert (U : horner PP z <= 1284 / 10000).
  { unfold PP. rewrite horner_cons. assert (horner (tl PP) z <= 0) by (apply horner_neg; [lra|unfold PP; cbn [tl]; fa]).
    unfold PP in H; cbn [tl] in H. nra. }
  assert (L : - 1 / 2 < horner PP z).
  { unfold PP. rewrite !horner_cons.
    assert (B : - (4 * (285 / 10000)) <= horner [- (284817495755985104766 / 10 ^ 22); - (577027029648944159157 / 10 ^ 23); - (237630166566501626084 / 10 ^ 25)] z <= 4 * (285 / 10000)).
    { apply horner_bound; [lra|rewrite Rabs_pos_eq; lra|fa]. }
    rewrite !horner_cons in B. set (h := _ + z * (_ + z * (_ + z * _))) in B |- *. nra. }
  assert (I : 0 < / horner QQ z <= 1).
  { split; [apply Rinv_0_lt_compat; lra|]. rewrite <- Rinv_1. apply Rinv_le_contravar; lra. }
  unfold Rdiv. split; nra.
Qed.
(** the rational function between 0.84375 and 1.25 *)
Lemma mid_bound x : 84375 / 100000 <= x < 125 / 100 -> - 15 / 100 < horner PA (x - 1) / horner QA (x - 1) < 15 / 100.
Proof.
  intros X. set (s := x - 1). assert (S : - 15625 / 100000 <= s < 25 / 100) by (unfold s; lra).
  assert (A : Rabs s <= 1 / 4) by (unfold Rabs; destruct (Rcase_abs s); lra).
  assert (P : - 138 / 1000 <= horner PA s <= 138 / 1000).
  { unfold PA. rewrite !(horner_cons (- (236211856075265944077 / 10 ^ 23))), (horner_cons (414856118683748331666 / 10 ^ 21)).
    match goal with |- context [horner ?l s] => set (h := horner l s); assert (B : - (4 / 3 * (373 / 1000)) <= h <= 4 / 3 * (373 / 1000)) end.
    { apply horner_bound4; [lra|auto|fa]. }
    clearbody h. split; nra. }
  assert (Q : 955 / 1000 <= horner QA s).
  { unfold QA. rewrite (horner_cons 1), (horner_cons (106420880400844228286 / 10 ^ 21)).
    match goal with |- context [horner ?l s] => set (h := horner l s); assert (B : - (4 / 3 * (541 / 1000)) <= h <= 4 / 3 * (541 / 1000)) end.
    { apply horner_bound4; [lra|auto|fa]. }
    clearbody h. nra. }
  assert (I : 0 < / horner QA s <= 1000 / 955).
  { split; [apply Rinv_0_lt_compat; lra|]. replace (1000 / 955) with (/ (955 / 1000)) by field. apply Rinv_le_contravar; lra. }
  unfold Rdiv. split; nra.
Qed.

Section E.
Variable cut : R -> R.
Notation erf := (Erf_Model.erf cut).
Notation erfc := (Erf_Model.erfc cut).

(** the quotient in the exponent beyond 1.25 *)
Definition quot (x : R) : R :=
  let s := / (x * x) in if Rltb x (1 / (35 / 100)) then horner RA s / horner SA s else horner RB s / horner SB s.
Lemma tail_form x : tail cut x = exp (- (x * x) - 5625 / 10000 + quot x) / x.
Proof.
  unfold tail, quot. replace (1 / (x * x)) with (/ (x * x)) by (unfold Rdiv; ring).
  destruct (Rltb x (1 / (35 / 100))); rewrite <- exp_plus; do 2 f_equal; ring.
Qed.
Lemma quot_neg x : 125 / 100 <= x -> quot x <= 0.
Proof.
  intros X. unfold quot. set (s := / (x * x)).
  assert (S : 0 < s <= 64 / 100).
  { unfold s. split; [apply Rinv_0_lt_compat; nra|]. replace (64 / 100) with (/ (15625 / 10000)) by field. apply Rinv_le_contravar; nra. }
  assert (K : forall a b, a <= 0 -> 0 <= b -> a / b <= 0).
  { intros a b A B. unfold Rdiv. destruct (Req_dec b 0) as [->|]; [rewrite Rinv_0; lra|]. assert (0 < / b) by (apply Rinv_0_lt_compat; lra). nra. }
  destruct (Rltb_spec x (1 / (35 / 100))) as [L|L]; apply K.
  - apply horner_neg; [lra|unfold RA; fa].
  - unfold SA. rewrite !horner_cons. cbn [horner fold_right].
    assert (0 <= 657024977031928170135 / 10 ^ 20 + s * (- (604244152148580987438 / 10 ^ 22) + s * 0)) by nra.
    repeat first [assumption | apply Rplus_le_le_0_compat; [lra|]; apply Rmult_le_pos; [lra|]].
  - apply horner_neg; [lra|unfold RB; fa].
  - unfold SB. rewrite !horner_cons. cbn [horner fold_right].
    assert (0 <= 474528541206955367215 / 10 ^ 18 + s * (- (224409524465858183362 / 10 ^ 19) + s * 0)) by nra.
    repeat first [assumption | apply Rplus_le_le_0_compat; [lra|]; apply Rmult_le_pos; [lra|]].
Qed.
Lemma tail_bound x : 125 / 100 <= x -> 0 < tail cut x < 1.
Proof.
  intros X. rewrite tail_form. pose proof (quot_neg x X) as Q.
  assert (E : exp (- (x * x) - 5625 / 10000 + quot x) < 1). { rewrite <- exp_0. apply exp_increasing. nra. }
  pose proof (exp_pos (- (x * x) - 5625 / 10000 + quot x)) as E0.
  assert (I : 0 < / x < 1). { split; [apply Rinv_0_lt_compat; lra|]. rewrite <- Rinv_1. apply Rinv_lt_contravar; lra. }
  unfold Rdiv. split; [apply Rmult_lt_0_compat; lra|nra].
Qed.

(** The special values: NaN, the infinities, zero, and saturation from 6 (erf) and 28 (erfc) on. *)
Theorem C106_special :
  erf NaN = NaN /\ erf (Inf false) = Fin 1 /\ erf (Inf true) = Fin (-1) /\ erf (Fin 0) = Fin 0 /\ (forall x, 6 <= x -> erf (Fin x) = Fin 1) /\
  erfc NaN = NaN /\ erfc (Inf false) = Fin 0 /\ erfc (Inf true) = Fin 2 /\ erfc (Fin 0) = Fin 1 /\ (forall x, 28 <= x -> erfc (Fin x) = Fin 0) /\
  (forall x, x < -6 -> erfc (Fin x) = Fin 2).
Proof.
  assert (Z : very_tiny <> 0 /\ 0 < very_tiny) by (assert (0 < very_tiny) by (unfold very_tiny; apply Rdiv_lt_0_compat; [lra|apply pow_lt; lra]); lra).
  splits; auto.
  - unfold Erf_Model.erf. destruct (Rltb_spec 0 0); [lra|]. destruct (Rltb_spec 0 (84375 / 100000)); [|lra]. unfold small.
    destruct (Rltb_spec 0 (/ 2 ^ 28)); [|lra]. destruct (Rltb_spec 0 very_tiny); [|lra]. f_equal. ring.
  - intros x X. unfold Erf_Model.erf. destruct (Rltb_spec x 0); [lra|]. destruct (Rltb_spec x (84375 / 100000)); [lra|].
    destruct (Rltb_spec x (125 / 100)); [lra|]. destruct (Rleb_spec 6 x); [|lra]. auto.
  - unfold Erf_Model.erfc. destruct (Rltb_spec 0 0); [lra|]. destruct (Rltb_spec 0 (84375 / 100000)); [|lra]. unfold tiny.
    destruct (Rltb_spec 0 (/ 2 ^ 56)); [|lra]. f_equal. ring.
  - intros x X. unfold Erf_Model.erfc. destruct (Rltb_spec x 0); [lra|]. destruct (Rltb_spec x (84375 / 100000)); [lra|].
    destruct (Rltb_spec x (125 / 100)); [lra|]. destruct (Rltb_spec x 28); [lra|]. auto.
  - intros x X. unfold Erf_Model.erfc. destruct (Rltb_spec x 0); [|lra]. destruct (Rltb_spec (- x) (84375 / 100000)); [lra|].
    destruct (Rltb_spec (- x) (125 / 100)); [lra|]. destruct (Rltb_spec (- x) 28); auto.
    destruct (Rltb_spec (- x) (1 / (35 / 100))); [lra|]. destruct (Rltb_spec 6 (- x)); [|lra]. auto.
Qed.
(** erf is odd. *)
Theorem C106_erf_odd : forall x, erf (xneg x) = xneg (erf x).
Proof.
  intros [|[]|x]; cbn [xneg negb]; try reflexivity; [cbn; f_equal; lra..|].
  destruct (Req_dec x 0) as [->|N].
  { rewrite Ropp_0. destruct C106_special as (_ & _ & _ & -> & _). cbn. f_equal. ring. }
  unfold Erf_Model.erf.
  destruct (Rltb_spec x 0); destruct (Rltb_spec (- x) 0); try lra; rewrite ?Ropp_involutive.
  - destruct (Rltb (- x) (84375 / 100000)); [cbn; f_equal; ring|]. destruct (Rltb (- x) (125 / 100)); [cbn; f_equal; ring|].
    destruct (Rleb 6 (- x)); cbn; f_equal; ring.
  - destruct (Rltb x (84375 / 100000)); [cbn; auto|]. destruct (Rltb x (125 / 100)); [cbn; f_equal; ring|].
    destruct (Rleb 6 x); cbn; f_equal; ring.
Qed.
(** erfc(-x) = 2 - erfc(x) up to 6 (beyond, erfc(-x) is 2 while erfc(x) keeps its small value). *)
Theorem C106_erfc_reflect : forall x, - 6 <= x <= 6 -> exists e, erfc (Fin x) = Fin e /\ erfc (Fin (- x)) = Fin (2 - e).
Proof.
  assert (K : forall x, 0 < x <= 6 -> exists e, erfc (Fin x) = Fin e /\ erfc (Fin (- x)) = Fin (2 - e)).
  { intros x X. unfold Erf_Model.erfc.
    destruct (Rltb_spec x 0); destruct (Rltb_spec (- x) 0); try lra. rewrite ?Ropp_involutive.
    destruct (Rltb x (84375 / 100000)); [eexists; split; [reflexivity|f_equal; ring]|].
    destruct (Rltb x (125 / 100)); [eexists; split; [reflexivity|f_equal; ring]|].
    destruct (Rltb_spec x 28); [|lra]. rewrite andb_false_r. cbn [andb]. destruct (Rltb_spec 6 x); [lra|]. rewrite andb_false_r.
    eexists. split; [reflexivity|]. f_equal. }
  intros x X. destruct (Rtotal_order x 0) as [L|[->|L]].
  - destruct (K (- x)) as (e & A & B); [lra|]. rewrite Ropp_involutive in B. exists (2 - e). split; auto. rewrite A. f_equal. ring.
  - exists 1. rewrite Ropp_0. destruct C106_special as (_ & _ & _ & _ & _ & _ & _ & _ & -> & _). split; auto. f_equal. ring.
  - apply K. lra.
Qed.
(** erf + erfc = 1, exactly, between 2^-28 and 6 in absolute value. *)
Theorem C106_complement : forall x, / 2 ^ 28 <= Rabs x < 6 -> exists e c, erf (Fin x) = Fin e /\ erfc (Fin x) = Fin c /\ e + c = 1.
Proof.
  assert (K : forall x, / 2 ^ 28 <= x < 6 -> exists e c, erf (Fin x) = Fin e /\ erfc (Fin x) = Fin c /\ e + c = 1).
  { intros x X. unfold Erf_Model.erf, Erf_Model.erfc. destruct (Rltb_spec x 0); [lra|].
    destruct (Rltb_spec x (84375 / 100000)).
    - unfold small, tiny. destruct (Rltb_spec x (/ 2 ^ 28)); [lra|]. destruct (Rltb_spec x (/ 2 ^ 56)); [lra|]. do 2 eexists.
      splits; [reflexivity..|]. destruct (Rltb x (25 / 100)); ring.
    - destruct (Rltb x (125 / 100)); [do 2 eexists; splits; [reflexivity..|ring]|].
      destruct (Rleb_spec 6 x); [lra|]. destruct (Rltb_spec x 28); [|lra]. rewrite andb_false_r. cbn [andb].
      do 2 eexists. splits; [reflexivity..|ring]. }
  intros x X. unfold Rabs in X. destruct (Rcase_abs x) as [L|L].
  - destruct (K (- x)) as (e & c & E & F & S); [lra|].
    pose proof (C106_erf_odd (Fin (- x))) as O. cbn [xneg] in O. rewrite Ropp_involutive, E in O. cbn [xneg] in O.
    destruct (C106_erfc_reflect (- x)) as (c' & A & B); [lra|]. rewrite Ropp_involutive in B. rewrite F in A. inversion A; subst c'.
    exists (- e), (2 - c). splits; auto. lra.
  - apply K. lra.
Qed.
(** With the coefficients of the code, in exact arithmetic: erf has the sign of its argument and is strictly below 1 before 6;
    erfc is strictly between 0 and 1 for positive arguments before 28 and always between 0 and 2. *)
Theorem C106_range : forall x, exists e c, erf (Fin x) = Fin e /\ erfc (Fin x) = Fin c /\
  -1 <= e <= 1 /\ 0 <= c <= 2 /\ (0 < x < 6 -> 0 < e < 1) /\ (-6 < x < 0 -> -1 < e < 0) /\ (0 < x < 28 -> 0 < c < 1).
Proof.
  assert (VT : 0 < very_tiny) by (unfold very_tiny; apply Rdiv_lt_0_compat; [lra|apply pow_lt; lra]).
  assert (K : forall x, 0 < x -> exists e c, erf (Fin x) = Fin e /\ erfc (Fin x) = Fin c /\
    0 < e <= 1 /\ 0 <= c < 1 /\ (x < 6 -> e < 1) /\ (x < 28 -> 0 < c)).
  { intros x X. unfold Erf_Model.erf, Erf_Model.erfc. destruct (Rltb_spec x 0); [lra|].
    destruct (Rltb_spec x (84375 / 100000)) as [A|A].
    - pose proof (near_bound x (conj X A)) as B. set (y := horner PP (x * x) / horner QQ (x * x)) in *.
      assert (T : 0 < x + x * y < 1) by (split; nra).
      eexists _, _. split; [reflexivity|]. split; [reflexivity|].
      assert (E1 : forall t, 0 < t < 1 -> 0 < t <= 1 /\ (x < 6 -> t < 1)) by (intros; lra).
      assert (E2 : forall t, 0 < t < 1 -> 0 <= 1 - t < 1 /\ (x < 28 -> 0 < 1 - t)) by (intros; lra).
      match goal with |- 0 < ?t <= 1 /\ 0 <= 1 - ?u < 1 /\ _ => assert (H1 : 0 < t < 1); [|assert (H2 : 0 < u < 1)] end.
      + destruct (Rltb x small); auto. unfold EFX8, EFX. destruct (Rltb x very_tiny); lra.
      + destruct (Rltb x tiny); [lra|]. destruct (Rltb x (25 / 100)); auto. lra.
      + splits; try apply E1; try apply E2; auto; lra.
    - destruct (Rltb_spec x (125 / 100)) as [B|B].
      + pose proof (mid_bound x (conj A B)) as Q. set (y := horner PA (x - 1) / horner QA (x - 1)) in *. unfold ERX.
        eexists _, _. split; [reflexivity|]. split; [reflexivity|]. splits; lra.
      + pose proof (tail_bound x B) as T. rewrite andb_false_r. cbn [andb].
        destruct (Rleb_spec 6 x); destruct (Rltb_spec x 28); try lra; (eexists _, _; split; [reflexivity|]; split; [reflexivity|]; splits; lra). }
  intros x. destruct (Rtotal_order x 0) as [L|[->|L]].
  - destruct (K (- x)) as (e & c & E & F & B1 & B2 & B3 & B4); [lra|].
    pose proof (C106_erf_odd (Fin (- x))) as O. cbn [xneg] in O. rewrite Ropp_involutive, E in O. cbn [xneg] in O.
    destruct (Rlt_dec x (-6)) as [S|S].
    + exists (- e), 2. destruct C106_special as (_ & _ & _ & _ & _ & _ & _ & _ & _ & _ & H). rewrite (H x S). splits; auto; lra.
    + destruct (C106_erfc_reflect (- x)) as (c' & A & B); [lra|]. rewrite Ropp_involutive in B. rewrite F in A. inversion A; subst c'.
      exists (- e), (2 - c). splits; auto; lra.
  - exists 0, 1. destruct C106_special as (_ & _ & _ & -> & _ & _ & _ & _ & -> & _). splits; auto; lra.
  - destruct (K x L) as (e & c & E & F & B1 & B2 & B3 & B4). exists e, c. splits; auto; lra.
Qed.
End E.
(** The truncation of x to 20 bits used in the exponent has no effect in exact arithmetic: it only splits the rounding. *)
Theorem C106_cut : forall cut cut' x, Erf_Model.erf cut x = Erf_Model.erf cut' x /\ Erf_Model.erfc cut x = Erf_Model.erfc cut' x.
Proof.
  intros cut cut' x.
  assert (T : forall y, tail cut y = tail cut' y) by (intros; now rewrite !tail_form).
  unfold Erf_Model.erf, Erf_Model.erfc. destruct x as [| |x]; auto.
  destruct (if Rltb x 0 then (- x, true) else (x, false)) as [y sg]. now rewrite T.
Qed.

(* ------------------------------------------------------------------ *)
(** * The inverse functions *)
Lemma exp_lower n : (98 / 100) ^ n <= exp (- (INR n / 50)).
Proof.
  induction n as [|n IH]; [cbn; replace (- (0 / 50)) with 0 by field; rewrite exp_0; lra|].
  rewrite S_INR. replace (- ((INR n + 1) / 50)) with (- (INR n / 50) + - (1 / 50)) by field. rewrite exp_plus. cbn [pow].
  pose proof (exp_ineq1_le (- (1 / 50))). pose proof (pow_lt (98 / 100) n). rewrite Rmult_comm. apply Rmult_le_compat; lra.
Qed.
Lemma root_arg x : 85 / 100 < x < 1 -> 16 / 10 < sqrt (ln 2 - ln (1 - x)).
Proof.
  intros X. assert (E : 256 / 100 < ln 2 - ln (1 - x)).
  { replace (ln 2 - ln (1 - x)) with (ln (2 / (1 - x))).
    2:{ unfold Rdiv. rewrite ln_mult, ln_Rinv; [ring|lra|lra|apply Rinv_0_lt_compat; lra]. }
    rewrite <- (ln_exp (256 / 100)). apply ln_increasing; [apply exp_pos|].
    assert (L : 75 / 1000 < exp (- (256 / 100))).
    { pose proof (exp_lower 128) as H. rewrite INR_IZR_INZ in H. change (IZR (Z.of_nat 128)) with 128 in H.
      replace (- (128 / 50)) with (- (256 / 100)) in H by field. eapply Rlt_le_trans; [|exact H].
      unfold Rdiv. rewrite Rpow_mult_distr, pow_inv, !pow_IZR.
      apply Rmult_lt_reg_r with (IZR (100 ^ Z.of_nat 128)); [apply IZR_lt; reflexivity|].
      rewrite (Rmult_assoc (IZR (98 ^ Z.of_nat 128))), Rinv_l, Rmult_1_r by (apply not_0_IZR; discriminate).
      apply Rmult_lt_reg_l with 1000; [lra|]. rewrite <- !Rmult_assoc. replace (1000 * 75 * / 1000) with 75 by field.
      rewrite <- !mult_IZR. apply IZR_lt. reflexivity. }
    rewrite exp_Ropp in L. pose proof (exp_pos (256 / 100)) as P.
    assert (U : exp (256 / 100) < 1000 / 75).
    { replace (1000 / 75) with (/ (75 / 1000)) by field. rewrite <- (Rinv_inv (exp (256 / 100))). apply Rinv_lt_contravar; auto.
      apply Rmult_lt_0_compat; [lra|now apply Rinv_0_lt_compat]. }
    eapply Rlt_trans; [exact U|]. apply Rmult_lt_reg_r with (1 - x); [lra|]. unfold Rdiv. rewrite (Rmult_assoc 2), Rinv_l by lra. lra. }
  replace (16 / 10) with (sqrt (256 / 100)); [apply sqrt_lt_1; lra|].
  replace (256 / 100) with (16 / 10 * (16 / 10)) by field. apply sqrt_square. lra.
Qed.
(** erf_inv is infinite at -1 and 1, NaN outside and for NaN, and otherwise a finite number with the sign of its argument, zero at zero. *)
Theorem C106_erf_inv_domain :
  erf_inv NaN = NaN /\ (forall s, erf_inv (Inf s) = NaN) /\ erf_inv (Fin 1) = Inf false /\ erf_inv (Fin (-1)) = Inf true /\
  (forall x, 1 < Rabs x -> erf_inv (Fin x) = NaN) /\
  (forall x, Rabs x < 1 -> exists y, erf_inv (Fin x) = Fin y /\ (0 < x -> 0 < y) /\ (x < 0 -> y < 0) /\ (x = 0 -> y = 0)).
Proof.
  assert (Q : forall cs ds r, 0 <= r -> Forall (fun c => 0 <= c) cs -> Forall (fun c => 0 <= c) ds -> forall c d, 0 < c -> 0 < d ->
    0 < horner (c :: cs) r / horner (d :: ds) r).
  { intros cs ds r Hr C D c d Hc Hd. rewrite !horner_cons. pose proof (horner_pos cs r Hr C). pose proof (horner_pos ds r Hr D).
    apply Rdiv_lt_0_compat; nra. }
  splits; auto.
  - unfold erf_inv. destruct (Reqb_spec 1 (-1)); [lra|]. destruct (Reqb_spec 1 1); [auto|lra].
  - unfold erf_inv. destruct (Reqb_spec (-1) (-1)); [auto|lra].
  - intros x X. unfold Rabs in X. unfold erf_inv. destruct (Reqb_spec x (-1)); [subst; destruct (Rcase_abs (-1)); lra|].
    destruct (Reqb_spec x 1); [subst; destruct (Rcase_abs 1); lra|].
    destruct (Rltb_spec x (-1)); auto. destruct (Rltb_spec 1 x); auto. destruct (Rcase_abs x); lra.
  - intros x X. assert (B : -1 < x < 1) by (unfold Rabs in X; destruct (Rcase_abs x); lra). unfold erf_inv.
    destruct (Reqb_spec x (-1)); [lra|]. destruct (Reqb_spec x 1); [lra|]. destruct (Rltb_spec x (-1)); [lra|]. destruct (Rltb_spec 1 x); [lra|]. cbn [orb].
    assert (P : forall t, 0 <= t < 1 -> exists y, (if Rleb t (85 / 100) then
          let r := 180625 / 1000000 - 25 / 100 * t * t in
          t * horner IA r / horner IB r
        else
          let r := sqrt (ln 2 - ln (1 - t)) in
          let '(z1, z2) :=
            if Rleb r 5 then
              let r := r - 16 / 10 in (horner IC r, horner ID r)
            else
              let r := r - 5 in (horner IE r, horner IF r) in
          z1 / z2) = y /\ (0 < t -> 0 < y) /\ (t = 0 -> y = 0)).
    { intros t T. eexists. split; [reflexivity|]. destruct (Rleb_spec t (85 / 100)) as [L|L].
      - cbv zeta. set (r := 180625 / 1000000 - 25 / 100 * t * t). assert (R0 : 0 <= r) by (unfold r; nra).
        assert (HQ : 0 < horner IA r / horner IB r) by (apply Q; try lra; fa). split.
        + intros T0. unfold Rdiv in *. rewrite Rmult_assoc. nra.
        + intros ->. unfold Rdiv. ring.
      - split; [|lra]. intros _. pose proof (root_arg t ltac:(lra)) as S. cbv zeta. set (r := sqrt _) in *.
        destruct (Rleb_spec r 5); apply Q; try lra; fa. }
    destruct (Rltb_spec x 0) as [L|L].
    + destruct (P (- x)) as (y & E & Y1 & Y2); [lra|]. exists (- y). split; [f_equal; f_equal; exact E|]. splits; intros; try lra.
    + destruct (P x) as (y & E & Y1 & Y2); [lra|]. exists y. split; [f_equal; exact E|]. splits; auto; lra.
Qed.
(** erf_inv is odd, and erfc_inv(x) = erf_inv(1 - x), so erfc_inv(2 - x) = -erfc_inv(x): infinite at 0 and 2, NaN outside. *)
Theorem C106_inverse_symmetry :
  (forall x, erf_inv (xneg x) = xneg (erf_inv x)) /\
  (forall x, erfc_inv (Fin (2 - x)) = xneg (erfc_inv (Fin x))) /\
  erfc_inv (Fin 0) = Inf false /\ erfc_inv (Fin 2) = Inf true /\ erfc_inv (Fin 1) = Fin 0 /\
  (forall x, x < 0 \/ 2 < x -> erfc_inv (Fin x) = NaN) /\ erfc_inv NaN = NaN /\ (forall s, erfc_inv (Inf s) = NaN) /\
  (forall x, 0 < x < 1 -> exists y, 0 < y /\ erfc_inv (Fin x) = Fin y).
Proof.
  destruct C106_erf_inv_domain as (D1 & D2 & D3 & D4 & D5 & D6).
  assert (O : forall x, erf_inv (xneg x) = xneg (erf_inv x)).
  { intros [|s|x]; auto. cbn [xneg]. destruct (Req_dec x 0) as [->|N].
    { rewrite Ropp_0. destruct (D6 0) as (y & E & _ & _ & Z); [rewrite Rabs_R0; lra|]. rewrite E, Z by auto. cbn. f_equal. ring. }
    unfold erf_inv. destruct (Reqb_spec (- x) (-1)); destruct (Reqb_spec x 1); try lra.
    { destruct (Reqb_spec x (-1)); [lra|]. auto. }
    destruct (Reqb_spec (- x) 1); destruct (Reqb_spec x (-1)); try lra; auto.
    destruct (Rltb_spec (- x) (-1)); destruct (Rltb_spec 1 x); try lra; [rewrite orb_true_r; auto|]. rewrite orb_false_r. cbn [orb].
    destruct (Rltb_spec 1 (- x)); destruct (Rltb_spec x (-1)); try lra; auto.
    destruct (Rltb_spec (- x) 0); destruct (Rltb_spec x 0); try lra; rewrite ?Ropp_involutive; cbn [xneg]; auto. f_equal. ring. }
  splits; auto.
  - intros x. cbn [erfc_inv]. rewrite <- O. cbn [xneg]. do 2 f_equal. ring.
  - cbn [erfc_inv]. now replace (1 - 0) with 1 by ring.
  - cbn [erfc_inv]. now replace (1 - 2) with (-1) by ring.
  - cbn [erfc_inv]. replace (1 - 1) with 0 by ring. destruct (D6 0) as (y & E & _ & _ & Z); [rewrite Rabs_R0; lra|]. now rewrite E, Z.
  - intros x X. cbn [erfc_inv]. apply D5. unfold Rabs. destruct (Rcase_abs (1 - x)); lra.
  - intros x X. cbn [erfc_inv]. destruct (D6 (1 - x)) as (y & E & Y & _); [unfold Rabs; destruct (Rcase_abs (1 - x)); lra|]. exists y. split; auto. apply Y. lra.
Qed.

Definition one64 : f64 := @B754_finite 53 1024 false 4503599627370496 (-52) eq_refl.
Definition x64 : f64 := @B754_finite 53 1024 false 4503599627370496 (-112) eq_refl.
Lemma one64_R : B2R one64 = 1.
Proof. cbn. unfold Defs.F2R. cbn. lra. Qed.
Lemma x64_R : B2R x64 = / 2 ^ 60.
Proof. cbn. unfold Defs.F2R. cbn. lra. Qed.
Lemma one_minus_x : Bminus mode_NE one64 x64 = one64.
Proof. apply B2SF_inj. vm_compute. reflexivity. Qed.
(** In f64, erfc_inv returns +Inf for small positive numbers, for which the inverse is a moderate number: 1.0 - x rounds to 1.0.
    The numbers are IEEE binary64 (Flocq); the example is x = 2^-60, and the exact function is finite there. *)
Theorem C106_erfc_inv_small_refuted :
  exists one x : f64, B2R one = 1 /\ B2R x = / 2 ^ 60 /\
  erf_inv (Fin (B2R (Bminus mode_NE one x))) = Inf false /\
  exists y, 0 < y /\ erfc_inv (Fin (B2R x)) = Fin y.
Proof.
  exists one64, x64. splits; try exact one64_R; try exact x64_R.
  - rewrite one_minus_x, one64_R. now destruct C106_erf_inv_domain as (_ & _ & -> & _).
  - rewrite x64_R. destruct C106_inverse_symmetry as (_ & _ & _ & _ & _ & _ & _ & _ & H). apply H. lra.
Qed.

(* ------------------------------------------------------------------ *)
(** * Values that meet the hypotheses *)
Example C106_case : -6 <= 5 / 2 <= 6 /\ / 2 ^ 28 <= Rabs (5 / 2) < 6 /\ Rabs (1 / 2) < 1 /\ 1 < Rabs (3 / 2).
Proof. rewrite !Rabs_pos_eq by lra. lra. Qed.
Print Assumptions C106_special.
Print Assumptions C106_erf_odd.
Print Assumptions C106_erfc_reflect.
Print Assumptions C106_complement.
Print Assumptions C106_range.
Print Assumptions C106_cut.
Print Assumptions C106_erf_inv_domain.
Print Assumptions C106_inverse_symmetry.
Print Assumptions C106_erfc_inv_small_refuted.
