(** C107: the logarithm of the gamma function. *)
From Coq Require Import List Bool ZArith Lia Reals Lra.
From Flocq Require Import Core.Core IEEE754.Binary IEEE754.Bits.
From Verif Require Import Base RBase Bessel_Model Erf_Model Gamma_Model LnGamma_Model.
Import ListNotations.
Local Open Scope R_scope.

(* ------------------------------------------------------------------ *)
(** * Integers and the sine *)
Lemma floor_bounds x : floorR x <= x < floorR x + 1.
Proof. unfold floorR. destruct (base_Int_part x) as [A B]. lra. Qed.
Lemma floor_unique x k : IZR k <= x < IZR k + 1 -> Int_part x = k.
Proof.
  intros H. pose proof (floor_bounds x) as B. unfold floorR in B.
  assert (IZR (Int_part x) < IZR (k + 1)) by (rewrite plus_IZR; lra).
  assert (IZR k < IZR (Int_part x + 1)) by (rewrite plus_IZR; lra).
  apply lt_IZR in H0, H1. lia.
Qed.
Lemma floor_IZR k : floorR (IZR k) = IZR k.
Proof. unfold floorR. f_equal. apply floor_unique. lra. Qed.

Lemma sin_shift k : forall x, sin (x + IZR k * (2 * PI)) = sin x.
Proof.
  assert (N : forall n x, sin (x + INR n * (2 * PI)) = sin x).
  { intros n x. replace (x + INR n * (2 * PI)) with (x + 2 * INR n * PI) by ring. apply sin_period. }
  intros x. destruct (Z.le_ge_cases 0 k) as [H|H].
  - rewrite <- (Z2Nat.id k) by auto. rewrite <- INR_IZR_INZ. apply N.
  - rewrite <- (N (Z.to_nat (- k)) (x + IZR k * (2 * PI))). f_equal.
    rewrite INR_IZR_INZ, Z2Nat.id by lia. rewrite opp_IZR. ring.
Qed.
Lemma sin_int k : sin (PI * IZR k) = 0.
Proof. apply sin_eq_0_1. exists k. ring. Qed.

(** On exactly the arguments of the code, the argument reduction computes the sine of -pi x. *)
Theorem C107_sin a : 0 <= a -> sin_pi_neg a = Ok (sin (PI * - a)).
Proof.
  intros A. unfold sin_pi_neg. destruct (Rleb_spec 0 a); [|lra]. cbn [negb].
  assert (S : sin (PI * - a) = - sin (PI * a)) by (rewrite <- sin_neg; f_equal; ring).
  destruct (Rltb_spec a (1 / 4)); [rewrite S; auto|].
  destruct (Reqb_spec (floorR a) a) as [E|E]; cbn [negb].
  - (* an integer *)
    unfold floorR in E. set (k := Int_part a) in *.
    assert (Z0 : sin (PI * - a) = 0) by (rewrite S, <- E, sin_int; lra). rewrite Z0.
    destruct (Rleb_spec TWO_53 a).
    + cbn [Z.eqb]. rewrite Rmult_0_r, sin_0. f_equal. lra.
    + destruct (Z.odd k); [change (Z.shiftl 1 2) with 4%Z|change (Z.shiftl 0 2) with 0%Z]; cbn [Z.eqb orb Pos.eqb].
      * replace (1 - 1) with 0 by ring. rewrite Rmult_0_r, sin_0. f_equal. lra.
      * rewrite Rmult_0_r, sin_0. f_equal. lra.
  - set (m := Int_part (a / 2)). pose proof (floor_bounds (a / 2)) as B. unfold floorR in B |- *. fold m in B |- *.
    set (y := a - 2 * IZR m). assert (Y : 0 <= y < 2) by (unfold y; lra).
    assert (P : sin (PI * a) = sin (PI * y)).
    { rewrite <- (sin_shift m (PI * y)). f_equal. unfold y. ring. }
    rewrite S, P. clearbody y. clear - Y.
    assert (N : as_i32 (y * 4) = Int_part (y * 4)).
    { unfold as_i32, trunc. destruct (Rltb_spec (y * 4) 0); [lra|].
      pose proof (floor_bounds (y * 4)) as F. unfold floorR in F.
      assert (-1 < Int_part (y * 4) < 8)%Z by (split; apply lt_IZR; lra). lia. }
    rewrite N. set (n := Int_part (y * 4)). pose proof (floor_bounds (y * 4)) as F. unfold floorR in F. fold n in F.
    destruct (Z.eqb_spec n 0); [auto|].
    destruct ((n =? 1)%Z || (n =? 2)%Z).
    { f_equal. f_equal. rewrite <- cos_shift. f_equal. field. }
    destruct ((n =? 3)%Z || (n =? 4)%Z).
    { f_equal. f_equal. replace (PI * (1 - y)) with (PI - PI * y) by ring. apply sin_PI_x. }
    destruct ((n =? 5)%Z || (n =? 6)%Z).
    { f_equal. rewrite <- (sin_shift 1 (PI * y)).
      replace (PI * (y - 3 / 2)) with (- (PI / 2 - (PI * y + 1 * (2 * PI)) + 3 * PI)) by field.
      rewrite cos_neg. replace (PI / 2 - (PI * y + 1 * (2 * PI)) + 3 * PI) with (PI / 2 - (PI * y + 1 * (2 * PI)) + PI + 2 * INR 1 * PI) by (simpl; ring).
      rewrite cos_period, neg_cos, cos_shift. lra. }
    f_equal. f_equal. rewrite <- (sin_shift 1 (PI * (y - 2))). f_equal. ring.
Qed.

(** The lowest bit of the f64 2^52 + n is the parity of n. *)
Theorem C107_low_bit (n : Z) (z : binary64) :
  (0 <= n < 2 ^ 52)%Z -> is_finite 53 1024 z = true -> B2R 53 1024 z = IZR n + 2 ^ 52 ->
  low_bit z = if Z.odd n then 1%Z else 0%Z.
Proof.
  intros N Fz Vz.
  set (m := Z.to_pos (n + 2 ^ 52)). assert (M : Z.pos m = (n + 2 ^ 52)%Z) by (unfold m; rewrite Z2Pos.id by lia; auto). clearbody m.
  assert (HB : SpecFloat.bounded 53 1024 m 0 = true).
  { unfold SpecFloat.bounded, SpecFloat.canonical_mantissa. rewrite andb_true_iff. split; [|reflexivity].
    rewrite Digits.Zpos_digits2_pos. rewrite (Digits.Zdigits_unique radix2 (Z.pos m) 53); [reflexivity|].
    rewrite M. change (radix2 ^ (53 - 1))%Z with (2 ^ 52)%Z. change (radix2 ^ 53)%Z with (2 ^ 53)%Z. lia. }
  assert (E : z = B754_finite 53 1024 false m 0 HB).
  { apply B2R_inj.
    - destruct z; try discriminate; auto. exfalso. unfold B2R in Vz.
      assert (0 <= IZR n) by (apply IZR_le; lia). assert (0 < 2 ^ 52) by (apply pow_lt; lra). lra.
    - reflexivity.
    - rewrite Vz. unfold B2R, F2R. cbn [Fnum Fexp cond_Zopp]. rewrite M. rewrite plus_IZR.
      change (bpow radix2 0) with 1. replace (IZR (2 ^ 52)) with (2 ^ 52); [ring|]. rewrite (pow_IZR 2 52). reflexivity. }
  rewrite E. unfold low_bit, bits_of_b64, bits_of_binary_float.
  rewrite M. replace (n + 2 ^ 52 - 2 ^ 52)%Z with n by lia. destruct (Z.leb_spec 0 n) as [_|]; [|lia].
  unfold join_bits. change 1%Z with (Z.ones 1). rewrite Z.land_comm, Z.land_ones by lia. change (2 ^ 1)%Z with 2%Z.
  rewrite Z.shiftl_mul_pow2 by lia. rewrite Zmod_odd.
  change (Z.ones 1) with 1%Z.
  match goal with |- context [Z.odd (?a * 2 ^ 52 + n)] => replace (a * 2 ^ 52 + n)%Z with (n + 2 * (2 ^ 51 * a))%Z by ring end.
  rewrite Z.odd_add_mul_2. auto.
Qed.

(* ------------------------------------------------------------------ *)
(** * Special values, sign, reflection *)
Lemma tiny_pos : 0 < TINY < / 2.
Proof. unfold TINY. split; [apply Rinv_0_lt_compat, pow_lt; lra|]. apply Rinv_lt_contravar; [apply Rmult_lt_0_compat; [lra|apply pow_lt; lra]|]. simpl. lra. Qed.
Lemma two52 : 1 < TWO_52.
Proof. unfold TWO_52. simpl. lra. Qed.

(** the value for a positive argument of at least 2^-70 *)
Definition pos_value (x : R) : R :=
  if Reqb x 1 || Reqb x 2 then 0
  else if Rltb x 2 then below2 x
  else if Rltb x 8 then below8 x
  else if Rltb x TWO_58 then below58 x
  else x * (ln x - 1).
Lemma ln_gamma_pos x : TINY <= x -> ln_gamma (Fin x) = Ok (Fin (pos_value x), 1%Z).
Proof.
  intros X. pose proof tiny_pos. unfold ln_gamma, pos_value. destruct (Reqb_spec x 0); [lra|]. destruct (Rltb_spec x 0); [lra|].
  destruct (Rltb_spec x TINY); [lra|]. cbn [bind]. destruct (Reqb x 1 || Reqb x 2); auto.
Qed.
Lemma ln_gamma_tiny x : 0 < x < TINY -> ln_gamma (Fin x) = Ok (Fin (- ln x), 1%Z) /\ ln_gamma (Fin (- x)) = Ok (Fin (- ln x), (-1)%Z).
Proof.
  intros X. unfold ln_gamma. destruct (Reqb_spec x 0); [lra|]. destruct (Reqb_spec (- x) 0); [lra|].
  destruct (Rltb_spec x 0); [lra|]. destruct (Rltb_spec (- x) 0); [|lra]. rewrite Ropp_involutive. destruct (Rltb_spec x TINY); [|lra]. auto.
Qed.
Lemma ln_gamma_neg x : TINY <= x -> x < TWO_52 ->
  ln_gamma (Fin (- x)) =
  if Reqb (sin (PI * - x)) 0 then Ok (Inf false, 1%Z)
  else Ok (Fin (ln (PI / Rabs (sin (PI * - x) * x)) - pos_value x), if Rltb (sin (PI * - x)) 0 then (-1)%Z else 1%Z).
Proof.
  intros X X2. pose proof tiny_pos. unfold ln_gamma, pos_value. destruct (Reqb_spec (- x) 0); [lra|]. destruct (Rltb_spec (- x) 0); [|lra].
  rewrite Ropp_involutive. destruct (Rltb_spec x TINY); [lra|]. destruct (Rleb_spec TWO_52 x); [lra|].
  rewrite C107_sin by lra. cbn [bind]. destruct (Reqb_spec (sin (PI * - x)) 0) as [|S]; cbn [bind]; [auto|].
  destruct (Reqb_spec x 1) as [->|]; [exfalso; apply S; rewrite <- (opp_IZR 1); apply sin_int|].
  destruct (Reqb_spec x 2) as [->|]; [exfalso; apply S; rewrite <- (opp_IZR 2); apply sin_int|].
  auto.
Qed.

(** NaN and the infinities are returned unchanged; the poles (zero and the negative integers) give +Inf; 1 and 2 give 0. *)
Theorem C107_special :
  ln_gamma NaN = Ok (NaN, 1%Z) /\ (forall s, ln_gamma (Inf s) = Ok (Inf s, 1%Z)) /\ ln_gamma (Fin 0) = Ok (Inf false, 1%Z) /\
  ln_gamma (Fin 1) = Ok (Fin 0, 1%Z) /\ ln_gamma (Fin 2) = Ok (Fin 0, 1%Z) /\
  (forall n : Z, (0 < n)%Z -> ln_gamma (Fin (- IZR n)) = Ok (Inf false, 1%Z)).
Proof.
  pose proof tiny_pos as T. splits; auto.
  - unfold ln_gamma. destruct (Reqb_spec 0 0); [auto|lra].
  - rewrite ln_gamma_pos by lra. unfold pos_value. destruct (Reqb_spec 1 1); [auto|lra].
  - rewrite ln_gamma_pos by lra. unfold pos_value. destruct (Reqb_spec 2 2); [|lra]. rewrite orb_true_r. auto.
  - intros n N. assert (1 <= IZR n) by (apply IZR_le; lia). destruct (Rle_lt_dec TWO_52 (IZR n)) as [L|L].
    + unfold ln_gamma. destruct (Reqb_spec (- IZR n) 0); [auto|]. destruct (Rltb_spec (- IZR n) 0); [|lra].
      rewrite Ropp_involutive. destruct (Rltb_spec (IZR n) TINY); [lra|]. destruct (Rleb_spec TWO_52 (IZR n)); [auto|lra].
    + rewrite ln_gamma_neg by lra. rewrite <- opp_IZR, sin_int. destruct (Reqb_spec 0 0); [auto|lra].
Qed.

(** the sine of pi x between two integers *)
Lemma sin_between k x : IZR k < x < IZR k + 1 -> if Z.even k then 0 < sin (PI * x) else sin (PI * x) < 0.
Proof.
  intros X. pose proof PI_RGT_0 as P. destruct (Z.even k) eqn:E.
  - apply Z.even_spec in E. destruct E as [j ->]. rewrite mult_IZR in X.
    replace (PI * x) with (PI * (x - 2 * IZR j) + IZR j * (2 * PI)) by ring. rewrite sin_shift. apply sin_gt_0; nra.
  - rewrite <- Z.negb_odd in E. apply negb_false_iff, Z.odd_spec in E. destruct E as [j ->]. rewrite plus_IZR, mult_IZR in X.
    replace (PI * x) with (PI * (x - 2 * IZR j) + IZR j * (2 * PI)) by ring. rewrite sin_shift. apply sin_lt_0; nra.
Qed.
Lemma non_integer x : (forall k : Z, x <> IZR k) -> exists k, IZR k < x < IZR k + 1.
Proof. intros H. exists (Int_part x). pose proof (floor_bounds x) as B. unfold floorR in B. specialize (H (Int_part x)). lra. Qed.

(** The value is finite exactly away from the poles, nothing panics, and the sign is that of the gamma function: -1 in the
    intervals (-1, 0), (-3, -2), ..., and 1 everywhere else. (From -2^52 down every f64 is an integer.) *)
Theorem C107_sign x : - TWO_52 < x ->
  (x <= 0 -> (exists k : Z, x = IZR k) -> ln_gamma (Fin x) = Ok (Inf false, 1%Z)) /\
  (0 < x -> exists l, ln_gamma (Fin x) = Ok (Fin l, 1%Z)) /\
  (forall k : Z, IZR k < x < IZR k + 1 -> x < 0 -> exists l, ln_gamma (Fin x) = Ok (Fin l, if Z.odd k then (-1)%Z else 1%Z)).
Proof.
  intros X. pose proof tiny_pos as T. splits.
  - intros L [k ->]. destruct (Z.eq_dec k 0) as [->|]; [apply C107_special|].
    assert (k < 1)%Z by (apply lt_IZR; lra). destruct C107_special as (_ & _ & _ & _ & _ & N). specialize (N (- k)%Z ltac:(lia)).
    rewrite opp_IZR, Ropp_involutive in N. auto.
  - intros P. destruct (Rlt_le_dec x TINY) as [L|L].
    + destruct (ln_gamma_tiny x (conj P L)) as [-> _]. eauto.
    + rewrite ln_gamma_pos by auto. eauto.
  - intros k K N. replace x with (- - x) by ring. set (a := - x). assert (A : 0 < a) by (unfold a; lra).
    destruct (Rlt_le_dec a TINY) as [L|L].
    + destruct (ln_gamma_tiny a (conj A L)) as [_ ->]. assert (K1 : k = (-1)%Z).
      { assert (IZR (-2) < IZR k < IZR 0) as [K1 K2] by (unfold a in *; simpl IZR; lra). apply lt_IZR in K1, K2. lia. }
      subst k. cbn [Z.odd]. eauto.
    + rewrite ln_gamma_neg by (unfold a in *; lra). replace (- a) with x by (unfold a; ring).
      pose proof (sin_between k x K) as S. rewrite <- Z.negb_odd in S.
      destruct (Reqb_spec (sin (PI * x)) 0); [destruct (Z.odd k); cbn [negb] in S; lra|].
      destruct (Rltb_spec (sin (PI * x)) 0); destruct (Z.odd k); cbn [negb] in S; try lra; eauto.
Qed.

(** The reflection formula. *)
Theorem C107_reflection x : / 2 ^ 70 <= x < 2 ^ 52 -> (forall k : Z, x <> IZR k) ->
  exists l s, ln_gamma (Fin x) = Ok (Fin l, 1%Z) /\ ln_gamma (Fin (- x)) = Ok (Fin (ln (PI / Rabs (x * sin (PI * x))) - l), s) /\
    (s = 1 \/ s = -1)%Z /\ (s = 1%Z <-> sin (PI * x) < 0).
Proof.
  intros [A B] N. destruct (non_integer x N) as [k K]. pose proof (sin_between k x K) as S.
  assert (E : sin (PI * - x) = - sin (PI * x)) by (rewrite <- sin_neg; f_equal; ring).
  exists (pos_value x), (if Rltb (sin (PI * - x)) 0 then (-1)%Z else 1%Z). splits.
  - apply ln_gamma_pos. auto.
  - rewrite ln_gamma_neg by auto. destruct (Reqb_spec (sin (PI * - x)) 0) as [Z|_]; [destruct (Z.even k); lra|].
    do 3 f_equal. rewrite E. do 3 f_equal. rewrite <- Rabs_Ropp. f_equal. ring.
  - destruct (Rltb (sin (PI * - x)) 0); auto.
  - rewrite E. destruct (Rltb_spec (- sin (PI * x)) 0); split; intros; try lra; try discriminate; auto.
    destruct (Z.even k); lra.
Qed.

(* ------------------------------------------------------------------ *)
(** * The recurrence *)
Lemma as_i32_small x k : (0 <= k < 100)%Z -> IZR k <= x < IZR k + 1 -> as_i32 x = k.
Proof.
  intros K X. assert (0 <= IZR k) by (apply IZR_le; lia). unfold as_i32, trunc. destruct (Rltb_spec x 0); [lra|].
  rewrite (floor_unique x k X). lia.
Qed.
(** ln_gamma(x + 1) = ln x + ln_gamma(x) on the two ranges where the code reduces one to the other. *)
Theorem C107_recurrence x : / 2 ^ 70 <= x <= 9 / 10 \/ 2 <= x < 7 \/ x = 1 ->
  exists l, ln_gamma (Fin x) = Ok (Fin l, 1%Z) /\ ln_gamma (Fin (x + 1)) = Ok (Fin (ln x + l), 1%Z).
Proof.
  intros H. pose proof tiny_pos as T. exists (pos_value x).
  assert (X : TINY <= x) by (fold TINY in H; lra). split; [apply ln_gamma_pos; auto|]. rewrite ln_gamma_pos by lra. do 3 f_equal.
  fold TINY in H. destruct H as [H|[H|H]].
  - unfold pos_value. destruct (Reqb_spec (x + 1) 1); [lra|]. destruct (Reqb_spec (x + 1) 2); [lra|].
    destruct (Reqb_spec x 1); [lra|]. destruct (Reqb_spec x 2); [lra|]. cbn [orb].
    destruct (Rltb_spec (x + 1) 2); [|lra]. destruct (Rltb_spec x 2); [|lra]. unfold below2.
    destruct (Rleb_spec (x + 1) (9 / 10)); [lra|]. destruct (Rleb_spec x (9 / 10)); [|lra].
    destruct (Rleb_spec (Y_MIN + 27 / 100) (x + 1)); destruct (Rleb_spec (Y_MIN - 1 + 27 / 100) x); try lra.
    { replace (2 - (x + 1)) with (1 - x) by ring. ring. }
    destruct (Rleb_spec (Y_MIN - 27 / 100) (x + 1)); destruct (Rleb_spec (Y_MIN - 1 - 27 / 100) x); try lra.
    { replace (x + 1 - TC) with (x - (TC - 1)) by ring. ring. }
    replace (x + 1 - 1) with x by ring. ring.
  - assert (E : pos_value x = below8 x).
    { unfold pos_value. destruct (Reqb_spec x 1); [lra|]. destruct (Reqb_spec x 2) as [->|]; cbn [orb].
      - unfold below8. rewrite (as_i32_small 2 2) by (try lia; lra). cbn [Z.leb Z.compare Pos.compare Pos.compare_cont].
        replace (2 - 2) with 0 by ring. unfold Rdiv. ring.
      - destruct (Rltb_spec x 2); [lra|]. destruct (Rltb_spec x 8); [auto|lra]. }
    assert (E1 : pos_value (x + 1) = below8 (x + 1)).
    { unfold pos_value. destruct (Reqb_spec (x + 1) 1); [lra|]. destruct (Reqb_spec (x + 1) 2); [lra|]; cbn [orb].
      destruct (Rltb_spec (x + 1) 2); [lra|]. destruct (Rltb_spec (x + 1) 8); [auto|lra]. }
    rewrite E, E1. clear E E1.
    assert (K : forall k : Z, (2 <= k <= 6)%Z -> IZR k <= x < IZR k + 1 -> below8 (x + 1) = ln x + below8 x).
    { intros k K Kx. unfold below8. rewrite (as_i32_small x k) by (auto; lia).
      rewrite (as_i32_small (x + 1) (k + 1)) by (try lia; rewrite plus_IZR; lra).
      replace (x + 1 - IZR (k + 1)) with (x - IZR k) by (rewrite plus_IZR; ring).
      set (y := x - IZR k). set (b := 1 / 2 * y + _).
      assert (Y : 0 <= y < 1) by (unfold y; lra). assert (Xy : x = y + IZR k) by (unfold y; ring). clearbody y. clearbody b.
      assert (k = 2 \/ k = 3 \/ k = 4 \/ k = 5 \/ k = 6)%Z as [->|[->|[->|[->| ->]]]] by lia;
      cbn [Z.leb Z.compare Pos.compare Pos.compare_cont Z.add Pos.add Pos.succ Pos.add_carry]; rewrite Xy.
      all: try (rewrite <- Rplus_assoc, (Rplus_comm (ln _) b), Rplus_assoc; f_equal; rewrite <- ln_mult; [f_equal; ring|lra|]).
      all: try (repeat apply Rmult_lt_0_compat; lra).
      rewrite Rmult_1_l. ring. }
    destruct (Rlt_le_dec x 3); [apply (K 2%Z); [lia|lra]|]. destruct (Rlt_le_dec x 4); [apply (K 3%Z); [lia|lra]|].
    destruct (Rlt_le_dec x 5); [apply (K 4%Z); [lia|lra]|]. destruct (Rlt_le_dec x 6); [apply (K 5%Z); [lia|lra]|].
    apply (K 6%Z); [lia|lra].
  - subst x. rewrite ln_1. unfold pos_value. destruct (Reqb_spec 1 1); [|lra]. replace (1 + 1) with 2 by ring.
    destruct (Reqb_spec 2 2); [|lra]. rewrite orb_true_r. cbn [orb]. ring.
Qed.

(* ------------------------------------------------------------------ *)
(** * The sign of the logarithm *)
Lemma horner_nonneg cs s : 0 <= s -> Forall (fun c => 0 <= c) cs -> 0 <= horner cs s.
Proof. intros S. induction 1 as [|c cs C _ IH]; cbn [horner fold_right]; [lra|]. fold (horner cs s). nra. Qed.
Lemma horner_quarter cs s M : 0 <= M -> - (1 / 4) <= s <= 1 / 4 -> Forall (fun c => - M <= c <= M) cs -> - (4 / 3 * M) <= horner cs s <= 4 / 3 * M.
Proof. intros HM S. induction 1 as [|c cs C _ IH]; cbn [horner fold_right]; [lra|]. fold (horner cs s). nra. Qed.
Lemma horner_step c cs s : horner (c :: cs) s = c + s * horner cs s.
Proof. reflexivity. Qed.
Ltac fall := repeat (apply Forall_cons; [lra|]); apply Forall_nil.

Lemma approx0_bound y : 0 < y <= 27 / 100 -> - (1 / 2) * y <= approx0 y <= - (1 / 4) * y.
Proof.
  intros Y. unfold approx0. set (z := y * y). assert (Z : 0 < z <= 73 / 1000) by (unfold z; split; nra).
  assert (P : 0 <= horner LA_even z <= 104 / 1000).
  { split; [apply horner_nonneg; [lra|unfold LA_even; fall]|].
    destruct (horner_quarter LA_even z (78 / 1000)); [lra|lra|unfold LA_even; fall|]. lra. }
  assert (Q : 0 <= horner LA_odd z <= 432 / 1000).
  { split; [apply horner_nonneg; [lra|unfold LA_odd; fall]|].
    destruct (horner_quarter LA_odd z (324 / 1000)); [lra|lra|unfold LA_odd; fall|]. lra. }
  set (p := horner LA_even z) in *. set (q := horner LA_odd z) in *. clearbody p q.
  assert (0 <= z * q <= y * (12 / 100)).
  { split; [nra|]. unfold z. assert (0 <= y * q <= 12 / 100) by (split; nra). nra. }
  assert (0 <= y * p <= y * (104 / 1000)) by (split; nra). lra.
Qed.
Lemma approx1_bound y : - (27 / 100 + / 10 ^ 9) <= y <= 27 / 100 + / 10 ^ 9 -> - (18 / 100) < approx1 y < - (6 / 100).
Proof.
  intros Y. assert (Y' : - (2701 / 10000) <= y <= 2701 / 10000) by (simpl in Y; lra). clear Y. unfold approx1.
  set (z := y * y). set (w := z * y). assert (Z : 0 <= z <= 73 / 1000) by (unfold z; split; nra).
  assert (W : - (2 / 100) <= w <= 2 / 100) by (unfold w; split; nra).
  assert (A : - (4 / 3 * (484 / 1000)) <= horner LT_0 w <= 4 / 3 * (484 / 1000)) by (apply horner_quarter; [lra|lra|unfold LT_0; fall]).
  assert (B : - (4 / 3 * (148 / 1000)) <= horner LT_1 w <= 4 / 3 * (148 / 1000)) by (apply horner_quarter; [lra|lra|unfold LT_1; fall]).
  assert (C : - (4 / 3 * (66 / 1000)) <= horner LT_2 w <= 4 / 3 * (66 / 1000)) by (apply horner_quarter; [lra|lra|unfold LT_2; fall]).
  set (p1 := horner LT_0 w) in *. set (p2 := horner LT_1 w) in *. set (p3 := horner LT_2 w) in *. clearbody p1 p2 p3.
  assert (- (48 / 1000) <= z * p1 <= 48 / 1000) by (split; nra).
  assert (- (24 / 1000) <= y * p3 <= 24 / 1000) by (split; nra).
  set (e := y * p3) in *. clearbody e.
  assert (- (5 / 1000) <= w * (p2 + e) <= 5 / 1000) by (split; nra).
  assert (- (/ 10 ^ 9) < TT < 0) by (unfold TT; lra). unfold TF. lra.
Qed.
(** The denominators of the two rational approximations are positive on the ranges in which they are used. *)
Theorem C107_denominators :
  (forall y, - (1 / 10) <= y <= 1 / 4 -> 0 < horner LV y) /\ (forall y, 0 <= y <= 1 -> 1 <= horner LR y).
Proof.
  split; intros y Y.
  - unfold LV. rewrite horner_step, horner_step.
    match goal with |- context [horner ?l y] => set (h := horner l y); assert (B : - (4 / 3 * (213 / 100)) <= h <= 4 / 3 * (213 / 100)) end.
    { apply horner_quarter; [lra|lra|fall]. }
    clearbody h. assert (- (8 / 10) <= y * h <= 8 / 10) by (split; nra). nra.
  - unfold LR. rewrite horner_step. match goal with |- context [horner ?l y] => assert (0 <= horner l y) by (apply horner_nonneg; [lra|fall]) end. nra.
Qed.
Lemma approx2_bound y : - (1 / 10) <= y <= 192 / 1000 -> exists c, approx2 y = c * y /\ - (95 / 100) < c < - (5 / 100).
Proof.
  intros Y. exists (- (1 / 2) + horner LU y / horner LV y). unfold approx2. split; [unfold Rdiv; ring|].
  assert (Q : 70 / 100 <= horner LV y).
  { unfold LV. rewrite horner_step, horner_step.
    match goal with |- context [horner ?l y] => set (h := horner l y); assert (B : - (4 / 3 * (213 / 100)) <= h <= 4 / 3 * (213 / 100)) end.
    { apply horner_quarter; [lra|lra|fall]. }
    clearbody h. destruct (Rle_lt_dec 0 y).
    - assert (- (8 / 10) <= y * h) by nra. nra.
    - assert (y * h <= 2841 / 10000) by nra. nra. }
  assert (P : - (3 / 10) <= horner LU y <= 3 / 10).
  { unfold LU. rewrite horner_step.
    match goal with |- context [horner ?l y] => set (h := horner l y); assert (B : - (4 / 3 * (146 / 100)) <= h <= 4 / 3 * (146 / 100)) end.
    { apply horner_quarter; [lra|lra|fall]. }
    assert (0 <= y -> 0 <= h) by (intros; apply horner_nonneg; [lra|fall]). clearbody h.
    destruct (Rle_lt_dec 0 y) as [N|N]; [specialize (H N); split; nra|split; nra]. }
  assert (I : 0 < / horner LV y <= 100 / 70).
  { split; [apply Rinv_0_lt_compat; lra|]. replace (100 / 70) with (/ (70 / 100)) by field. apply Rinv_le_contravar; lra. }
  set (i := / horner LV y) in *. set (p := horner LU y) in *. unfold Rdiv. fold i. clearbody i p. split; nra.
Qed.

Lemma ln_le_minus x : 0 < x -> ln x <= x - 1.
Proof. intros X. pose proof (exp_ineq1_le (ln x)) as E. rewrite exp_ln in E by auto. lra. Qed.
Lemma ln_gt0 x : 1 < x -> 0 < ln x.
Proof. intros X. rewrite <- ln_1. apply ln_increasing; lra. Qed.
Lemma ymin : 1461632 / 10 ^ 6 < Y_MIN < 1461633 / 10 ^ 6 /\ - / 10 ^ 9 < Y_MIN - TC < / 10 ^ 9.
Proof. unfold Y_MIN, TC. lra. Qed.

(** With the coefficients of the code: the logarithm is positive on (0, 1) and beyond 2, zero at 1 and 2 and negative between. *)
Theorem C107_log_sign x : 0 < x -> exists l, ln_gamma (Fin x) = Ok (Fin l, 1%Z) /\
  (x < 1 -> 0 < l) /\ (x = 1 -> l = 0) /\ (1 < x < 2 -> l < 0) /\ (x = 2 -> l = 0) /\ (2 < x -> 0 < l).
Proof.
  intros X. pose proof tiny_pos as T. destruct (Rlt_le_dec x TINY) as [L|L].
  { exists (- ln x). split; [apply ln_gamma_tiny; auto|]. pose proof (ln_le_minus x X). splits; intros; lra. }
  exists (pos_value x). split; [apply ln_gamma_pos; auto|]. clear T L.
  assert (V1 : x = 1 -> pos_value x = 0) by (intros ->; unfold pos_value; destruct (Reqb_spec 1 1); [auto|lra]).
  assert (V2 : x = 2 -> pos_value x = 0) by (intros ->; unfold pos_value; destruct (Reqb_spec 2 2); [rewrite orb_true_r; auto|lra]).
  pose proof ymin as [M1 M2].
  assert (K : x <> 1 -> x <> 2 -> (x < 1 -> 0 < pos_value x) /\ (1 < x < 2 -> pos_value x < 0) /\ (2 < x -> 0 < pos_value x)).
  { intros N1 N2. unfold pos_value. destruct (Reqb_spec x 1); [lra|]. destruct (Reqb_spec x 2); [lra|]. cbn [orb].
    destruct (Rltb_spec x 2).
    - assert (S : x < 1 /\ 0 < below2 x \/ 1 < x /\ below2 x < 0); [|splits; intros; lra].
      pose proof (ln_le_minus x X) as LN. unfold below2. destruct (Rleb_spec x (9 / 10)).
      + left. split; [lra|]. destruct (Rleb_spec (Y_MIN - 1 + 27 / 100) x).
        { pose proof (approx0_bound (1 - x) ltac:(lra)). lra. }
        destruct (Rleb_spec (Y_MIN - 1 - 27 / 100) x).
        { pose proof (approx1_bound (x - (TC - 1)) ltac:(lra)). lra. }
        destruct (approx2_bound x ltac:(lra)) as (c & -> & C). nra.
      + destruct (Rleb_spec (Y_MIN + 27 / 100) x).
        { right. pose proof (approx0_bound (2 - x) ltac:(lra)). lra. }
        destruct (Rleb_spec (Y_MIN - 27 / 100) x).
        { right. pose proof (approx1_bound (x - TC) ltac:(lra)). lra. }
        destruct (approx2_bound (x - 1) ltac:(lra)) as (c & -> & C).
        destruct (Rlt_le_dec x 1); [left|right]; split; try lra; nra.
    - splits; try (intros; lra). intros _. destruct (Rltb_spec x 8).
      + assert (exists k : Z, (2 <= k <= 7)%Z /\ IZR k <= x < IZR k + 1) as (k & Kr & Kx).
        { exists (Int_part x). pose proof (floor_bounds x) as F. unfold floorR in F. split; [|lra].
          assert (1 < Int_part x < 8)%Z by (split; apply lt_IZR; lra). lia. }
        unfold below8. rewrite (as_i32_small x k) by (auto; lia). set (y := x - IZR k).
        assert (Y : 0 <= y < 1) by (unfold y; lra). destruct C107_denominators as [_ D]. specialize (D y ltac:(lra)).
        assert (P : - (78 / 1000) <= horner LS y).
        { unfold LS. rewrite horner_step. match goal with |- context [horner ?l y] => assert (0 <= horner l y) by (apply horner_nonneg; [lra|fall]) end. nra. }
        assert (I : 0 < / horner LR y <= 1) by (split; [apply Rinv_0_lt_compat; lra|rewrite <- Rinv_1; apply Rinv_le_contravar; lra]).
        assert (B : 4 / 10 * y <= 1 / 2 * y + y * horner LS y / horner LR y).
        { unfold Rdiv. rewrite Rmult_assoc. set (i := / horner LR y) in *. set (p := horner LS y) in *. clearbody i p.
          assert (- (78 / 1000) <= p * i) by nra. nra. }
        set (b := 1 / 2 * y + _) in *. clearbody b. destruct (Z.eq_dec k 2) as [->|K2].
        * cbn [Z.leb Z.compare Pos.compare Pos.compare_cont]. unfold y in *. lra.
        * destruct (Z.leb_spec 3 k); [|lia].
          match goal with |- 0 < b + ln ?z => assert (1 < z); [|pose proof (ln_gt0 z); lra] end.
          assert (G : forall a c, 1 <= a -> 1 <= c -> 1 <= a * c) by (intros; nra).
          match goal with |- 1 < ?u * (y + 2) => assert (1 <= u); [|nra] end.
          repeat match goal with |- context [if ?c then _ else _] => destruct c end; repeat apply G; lra.
      + assert (E : 1 < ln x). { rewrite <- (ln_exp 1). apply ln_increasing; [apply exp_pos|]. pose proof exp_le_3. lra. }
        destruct (Rltb x TWO_58).
        * unfold below58. replace (1 / x) with (/ x) by (unfold Rdiv; ring).
          assert (I : 0 < / x <= 1 / 8). { split; [apply Rinv_0_lt_compat; lra|]. replace (1 / 8) with (/ 8) by field. apply Rinv_le_contravar; lra. }
          set (i := / x) in *. clearbody i. assert (- (4 / 3 * (84 / 1000)) <= horner LW (i * i) <= 4 / 3 * (84 / 1000)).
          { apply horner_quarter; [lra|split; nra|unfold LW; fall]. }
          set (h := horner LW (i * i)) in *. clearbody h. assert (0 < (x - 1 / 2) * (ln x - 1)) by (apply Rmult_lt_0_compat; lra).
          assert (- (1 / 10) <= i * h) by nra. unfold LW_0. lra.
        * apply Rmult_lt_0_compat; lra. }
  splits; auto; intros H.
  - destruct K as (K1 & _); [lra|lra|auto].
  - destruct K as (_ & K1 & _); [lra|lra|auto].
  - destruct K as (_ & _ & K1); [lra|lra|auto].
Qed.

(** The results are not vacuous: the value at 3 is ln 2 > 0, at -1/2 the sign is -1, and the argument reduction gives sin(-5 pi / 2). *)
Example C107_case :
  ln_gamma (Fin 3) = Ok (Fin (ln 2 + 0), 1%Z) /\ (exists l, ln_gamma (Fin (-1 / 2)) = Ok (Fin l, (-1)%Z)) /\
  sin_pi_neg (5 / 2) = Ok (sin (PI * - (5 / 2))).
Proof.
  splits.
  - assert (R : / 2 ^ 70 <= 2 <= 9 / 10 \/ 2 <= 2 < 7 \/ 2 = 1) by (right; left; lra).
    destruct (C107_recurrence 2 R) as (l & A & B). destruct C107_special as (_ & _ & _ & _ & S & _). rewrite S in A. inversion A; subst l.
    rewrite <- B. do 2 f_equal. ring.
  - pose proof two52. destruct (C107_sign (-1 / 2)) as (_ & _ & S); [lra|]. apply (S (-1)%Z); [simpl; lra|lra].
  - apply C107_sin. lra.
Qed.

Print Assumptions C107_sin.
Print Assumptions C107_low_bit.
Print Assumptions C107_special.
Print Assumptions C107_sign.
Print Assumptions C107_reflection.
Print Assumptions C107_recurrence.
Print Assumptions C107_denominators.
Print Assumptions C107_log_sign.
