(** C32: splitting, decomposing and composing floating-point numbers, modulo. *)
From Coq Require Import ZArith Lia Bool Reals Lra.
From Verif Require Import Base Float_Model.
Open Scope Z_scope.

(* ------------------------------------------------------------------ *)
(** * Specification *)

(** a f64 *)
Definition is_f64 (u : Z) : Prop := 0 <= u < 2 ^ 64.

(** the real value of a finite number: sign, exponent field E, fraction field
    F stand for F 2^-1074 when E = 0 and (2^52 + F) 2^(E-1075) otherwise *)
Definition fval (u : Z) : R :=
  let m := if f_expo u =? 0 then (IZR (f_frac u) * powerRZ 2 (-1074))%R
           else (IZR (2 ^ 52 + f_frac u) * powerRZ 2 (f_expo u - 1075))%R in
  if f_sign u then (- m)%R else m.

(* ------------------------------------------------------------------ *)
(** * The fields *)

Definition mk (s : bool) (E f : Z) : Z := (if s then 2 ^ 63 else 0) + E * 2 ^ 52 + f.

Lemma p52 : 2 ^ 52 = 4503599627370496. Proof. reflexivity. Qed.
Lemma p53 : 2 ^ 53 = 9007199254740992. Proof. reflexivity. Qed.
Lemma p63 : 2 ^ 63 = 9223372036854775808. Proof. reflexivity. Qed.
Lemma p64 : 2 ^ 64 = 18446744073709551616. Proof. reflexivity. Qed.
Lemma p11 : 2 ^ 11 = 2048. Proof. reflexivity. Qed.
Ltac nums := rewrite ?p52, ?p53, ?p63, ?p64, ?p11 in *.

Lemma mk_f64 s E f : 0 <= E < 2048 -> 0 <= f < 2 ^ 52 -> is_f64 (mk s E f).
Proof. intros. unfold is_f64, mk. destruct s; nums; lia. Qed.

Lemma sign_mk s E f : 0 <= E < 2048 -> 0 <= f < 2 ^ 52 -> f_sign (mk s E f) = s.
Proof. intros. unfold f_sign, mk. destruct s; [apply Z.leb_le|apply Z.leb_gt]; nums; lia. Qed.

Lemma frac_mk s E f : 0 <= E < 2048 -> 0 <= f < 2 ^ 52 -> f_frac (mk s E f) = f.
Proof.
  intros. unfold f_frac, mk. replace ((if s then 2 ^ 63 else 0) + E * 2 ^ 52 + f) with (f + ((if s then 2048 else 0) + E) * 2 ^ 52).
  - rewrite Z.mod_add by (nums; lia). apply Z.mod_small. auto.
  - destruct s; nums; lia.
Qed.

Lemma expo_mk s E f : 0 <= E < 2048 -> 0 <= f < 2 ^ 52 -> f_expo (mk s E f) = E.
Proof.
  intros. unfold f_expo, mk. replace ((if s then 2 ^ 63 else 0) + E * 2 ^ 52 + f) with (f + ((if s then 2048 else 0) + E) * 2 ^ 52).
  - rewrite Z.div_add by (nums; lia). rewrite Z.div_small by auto.
    replace (0 + ((if s then 2048 else 0) + E)) with (E + (if s then 1 else 0) * 2 ^ 11) by (destruct s; nums; lia).
    rewrite Z.mod_add by (nums; lia). apply Z.mod_small. nums. lia.
  - destruct s; nums; lia.
Qed.

Lemma expo_range u : 0 <= f_expo u < 2048.
Proof. unfold f_expo. apply Z.mod_pos_bound. reflexivity. Qed.
Lemma frac_range u : 0 <= f_frac u < 2 ^ 52.
Proof. unfold f_frac. apply Z.mod_pos_bound. reflexivity. Qed.

Lemma mk_fields u : is_f64 u -> u = mk (f_sign u) (f_expo u) (f_frac u).
Proof.
  intros [H0 H]. unfold mk, f_expo, f_frac. pose proof (Z.div_mod u (2 ^ 52) ltac:(nums; lia)) as D.
  pose proof (Z.mod_pos_bound u (2 ^ 52) ltac:(nums; lia)) as B.
  set (q := u / 2 ^ 52) in *. set (r := u mod 2 ^ 52) in *.
  pose proof (Z.div_mod q (2 ^ 11) ltac:(nums; lia)) as D2. pose proof (Z.mod_pos_bound q (2 ^ 11) ltac:(nums; lia)) as B2.
  set (q2 := q / 2 ^ 11) in *. set (e := q mod 2 ^ 11) in *. clearbody q2 e r q.
  unfold f_sign. destruct (Z.leb_spec (2 ^ 63) u); nums; lia.
Qed.

(* ------------------------------------------------------------------ *)
(** * Bit operations *)

(** bits of a*2^k + b *)
Lemma bits_concat a b k n : 0 <= k -> 0 <= b < 2 ^ k -> 0 <= n ->
  Z.testbit (a * 2 ^ k + b) n = if n <? k then Z.testbit b n else Z.testbit a (n - k).
Proof.
  intros Hk Hb Hn. destruct (Z.ltb_spec n k).
  - rewrite <- (Z.mod_pow2_bits_low (a * 2 ^ k + b) k n) by auto.
    rewrite Z.add_comm, Z.mod_add by (apply Z.pow_nonzero; lia). rewrite Z.mod_small by auto. reflexivity.
  - replace n with ((n - k) + k) at 1 by lia. rewrite <- Z.div_pow2_bits by lia.
    rewrite Z.add_comm, Z.div_add by (apply Z.pow_nonzero; lia). rewrite Z.div_small by auto. reflexivity.
Qed.

Lemma land_expo u : Z.land (Z.shiftr u 52) 0x7ff = f_expo u.
Proof.
  change 0x7ff with (Z.ones 11). rewrite Z.land_ones by lia. rewrite Z.shiftr_div_pow2 by lia. reflexivity.
Qed.

(** the sign bit, and the replacement of the exponent field *)
Lemma mk_concat s E f : mk s E f = (if s then 1 else 0) * 2 ^ 63 + (E * 2 ^ 52 + f).
Proof. unfold mk. destruct s; lia. Qed.

Lemma bits_mk s E f n : 0 <= E < 2048 -> 0 <= f < 2 ^ 52 -> 0 <= n ->
  Z.testbit (mk s E f) n = if n <? 52 then Z.testbit f n else if n <? 63 then Z.testbit E (n - 52) else (n =? 63) && s.
Proof.
  intros HE Hf Hn. rewrite mk_concat. rewrite bits_concat by (nums; lia).
  destruct (Z.ltb_spec n 63).
  - rewrite bits_concat by (nums; lia). destruct (Z.ltb_spec n 52); auto.
  - destruct (Z.ltb_spec n 52); [lia|]. destruct (Z.eqb_spec n 63) as [->|].
    + destruct s; reflexivity.
    + replace (n - 63) with (Z.succ (n - 64)) by lia. destruct s; cbn [andb].
      * rewrite Z.bits_above_log2; auto; cbn; lia.
      * now rewrite Z.testbit_0_l.
Qed.

Lemma land_sign u : is_f64 u -> Z.land u (2 ^ 63) = f_zero (f_sign u).
Proof.
  intros H. pose proof (expo_range u). pose proof (frac_range u).
  replace (f_zero (f_sign u)) with (mk (f_sign u) 0 0) by (unfold f_zero, mk; lia).
  apply Z.bits_inj'. intros n Hn. rewrite Z.land_spec. rewrite (mk_fields u H) at 1.
  rewrite !bits_mk by (nums; lia). rewrite Z.pow2_bits_eqb by lia. rewrite !Z.testbit_0_l.
  destruct (Z.ltb_spec n 52), (Z.ltb_spec n 63), (Z.eqb_spec 63 n), (Z.eqb_spec n 63); try lia; subst; cbn [andb]; rewrite ?andb_false_r, ?andb_true_r; auto.
Qed.

Lemma set_expo s E f E' : 0 <= E < 2048 -> 0 <= f < 2 ^ 52 -> 0 <= E' < 2048 ->
  Z.lor (Z.land (mk s E f) 0x800fffffffffffff) (E' * 2 ^ 52) = mk s E' f.
Proof.
  intros HE Hf HE'. change 0x800fffffffffffff with (mk true 0 (Z.ones 52)).
  replace (E' * 2 ^ 52) with (mk false E' 0) by (unfold mk; lia).
  assert (HO : 0 <= Z.ones 52 < 2 ^ 52) by (rewrite Z.ones_equiv; nums; lia).
  apply Z.bits_inj'. intros n Hn. rewrite Z.lor_spec, Z.land_spec. rewrite !bits_mk by (nums; lia).
  rewrite !Z.testbit_0_l.
  destruct (Z.ltb_spec n 52).
  - rewrite Z.ones_spec_low by lia. now rewrite andb_true_r, orb_false_r.
  - destruct (Z.ltb_spec n 63); [now rewrite andb_false_r|].
    destruct (n =? 63), s; reflexivity.
Qed.

(* ------------------------------------------------------------------ *)
(** * Rounding *)

Lemma pow2_pos k : 0 <= k -> 0 < 2 ^ k. Proof. intros. apply Z.pow_pos_nonneg; lia. Qed.

Lemma round_even_scale m k j : 0 <= m -> 0 <= k -> round_even (m * 2 ^ k) j = round_even m (j - k).
Proof.
  intros Hm Hk. unfold round_even. cbv zeta. pose proof (pow2_pos k Hk) as Pk.
  destruct (Z.leb_spec j 0).
  - destruct (Z.leb_spec (j - k) 0); [|lia]. rewrite <- Z.mul_assoc, <- Z.pow_add_r by lia. do 2 f_equal. lia.
  - pose proof (pow2_pos j ltac:(lia)) as Pj. destruct (Z.leb_spec (j - k) 0).
    + replace (m * 2 ^ k) with (m * 2 ^ (k - j) * 2 ^ j) by (rewrite <- Z.mul_assoc, <- Z.pow_add_r by lia; do 2 f_equal; lia).
      rewrite Z.div_mul, Z.mod_mul by lia. rewrite Z.mul_0_r. destruct (Z.compare_spec 0 (2 ^ j)); try lia. do 2 f_equal. lia.
    + replace (2 ^ j) with (2 ^ (j - k) * 2 ^ k) by (rewrite <- Z.pow_add_r by lia; f_equal; lia). pose proof (pow2_pos (j - k) ltac:(lia)) as Pjk.
      rewrite Z.div_mul_cancel_r by lia. rewrite Zmult_mod_distr_r.
      rewrite Z.mul_assoc. rewrite <- (Zmult_compare_compat_r (2 * (m mod 2 ^ (j - k))) (2 ^ (j - k)) (2 ^ k)) by lia. reflexivity.
Qed.

Lemma round_scale s m e k : 0 < m -> 0 <= k -> f_round s (m * 2 ^ k) e = f_round s m (e + k).
Proof.
  intros Hm Hk. pose proof (pow2_pos k Hk) as Pk. unfold f_round.
  destruct (Z.eqb_spec (m * 2 ^ k) 0); [nia|]. destruct (Z.eqb_spec m 0); [lia|].
  rewrite Z.log2_mul_pow2 by lia. rewrite round_even_scale by lia.
  replace (k + Z.log2 m + e) with (Z.log2 m + (e + k)) by lia.
  set (ex := Z.max (Z.log2 m + (e + k)) (-1022)). replace (ex - 52 - e - k) with (ex - 52 - (e + k)) by lia. reflexivity.
Qed.

(** only the value matters *)
Lemma round_unique s m e m' e' K : 0 < m -> 0 < m' -> 0 <= e + K -> 0 <= e' + K ->
  m * 2 ^ (e + K) = m' * 2 ^ (e' + K) -> f_round s m e = f_round s m' e'.
Proof.
  intros Hm Hm' H H' E.
  replace e with (- K + (e + K)) by lia. rewrite <- round_scale by auto. rewrite E. rewrite round_scale by auto. f_equal. lia.
Qed.

Lemma mant_mk s E f : 0 <= E < 2048 -> 0 <= f < 2 ^ 52 -> f_mant (mk s E f) = if E =? 0 then f else 2 ^ 52 + f.
Proof. intros. unfold f_mant. rewrite expo_mk, frac_mk by auto. reflexivity. Qed.
Lemma unit_mk s E f : 0 <= E < 2048 -> 0 <= f < 2 ^ 52 -> f_unit (mk s E f) = if E =? 0 then -1074 else E - 1075.
Proof. intros. unfold f_unit. rewrite expo_mk by auto. reflexivity. Qed.

(** a representable value is rounded to itself *)
Lemma round_id u : is_f64 u -> f_expo u <> 2047 -> 0 < f_mant u -> f_round (f_sign u) (f_mant u) (f_unit u) = u.
Proof.
  intros H Hf Hm. pose proof (expo_range u) as HE. pose proof (frac_range u) as HF.
  rewrite (mk_fields u H) at 4. unfold f_round, f_mant, f_unit, mk, f_zero in *.
  destruct (Z.eqb_spec (f_expo u) 0) as [E0|E0].
  - destruct (Z.eqb_spec (f_frac u) 0); [lia|].
    assert (L : 0 <= Z.log2 (f_frac u) < 52) by (split; [apply Z.log2_nonneg|apply Z.log2_lt_pow2; lia]).
    rewrite Z.max_r by lia. unfold round_even. change (-1022 - 52 - -1074) with 0. cbn [Z.leb Z.compare].
    change (2 ^ (- 0)) with 1. rewrite E0.
    replace ((-1022 + 1022) * 2 ^ 52 + f_frac u * 1) with (f_frac u) by lia.
    destruct (Z.ltb_spec (f_frac u) (2047 * 2 ^ 52)); [|nums; lia]. lia.
  - destruct (Z.eqb_spec (2 ^ 52 + f_frac u) 0); [nums; lia|].
    assert (L : Z.log2 (2 ^ 52 + f_frac u) = 52).
    { apply Z.log2_unique; [lia|]. change (2 ^ Z.succ 52) with (2 ^ 53). nums. lia. }
    rewrite L. rewrite Z.max_l by lia. replace (52 + (f_expo u - 1075) - 52 - (f_expo u - 1075)) with 0 by lia.
    unfold round_even. cbn [Z.leb Z.compare]. change (2 ^ (- 0)) with 1.
    replace ((52 + (f_expo u - 1075) + 1022) * 2 ^ 52 + (2 ^ 52 + f_frac u) * 1) with (f_expo u * 2 ^ 52 + f_frac u) by lia.
    destruct (Z.ltb_spec (f_expo u * 2 ^ 52 + f_frac u) (2047 * 2 ^ 52)); [lia|nums; lia].
Qed.

(** magnitude in units of 2^-1074 *)
Definition f_mag (u : Z) : Z := f_mant u * 2 ^ (f_unit u + 1074).
Lemma f_int_mag u : f_int u = if f_sign u then - f_mag u else f_mag u. Proof. reflexivity. Qed.

Lemma unit_range u : 0 <= f_unit u + 1074.
Proof. unfold f_unit. pose proof (expo_range u). destruct (Z.eqb_spec (f_expo u) 0); lia. Qed.
Lemma mant_range u : 0 <= f_mant u < 2 ^ 53.
Proof. unfold f_mant. pose proof (frac_range u). destruct (f_expo u =? 0); nums; lia. Qed.
Lemma mag_nonneg u : 0 <= f_mag u.
Proof. unfold f_mag. pose proof (mant_range u). pose proof (pow2_pos _ (unit_range u)). nia. Qed.
Lemma mag_bound u : is_f64 u -> f_expo u <> 2047 -> f_mag u < 2 ^ 2098.
Proof.
  intros H Hf. unfold f_mag. pose proof (mant_range u) as M. pose proof (unit_range u).
  assert (U : f_unit u + 1074 <= 2045) by (unfold f_unit; pose proof (expo_range u); destruct (Z.eqb_spec (f_expo u) 0); lia).
  pose proof (pow2_pos (f_unit u + 1074) ltac:(lia)).
  apply Z.lt_le_trans with (2 ^ 53 * 2 ^ (f_unit u + 1074)); [nia|].
  rewrite <- Z.pow_add_r by lia. apply Z.pow_le_mono_r; lia.
Qed.

(** a representable magnitude: at most 53 bits, below 2^1024 *)
Lemma representable s n q j : 0 < n -> n = q * 2 ^ j -> 0 <= j -> 0 < q < 2 ^ 53 -> n < 2 ^ 2098 ->
  exists u, is_f64 u /\ f_expo u <> 2047 /\ f_sign u = s /\ f_mag u = n /\ f_round s n (-1074) = u.
Proof.
  intros Hn En Hj Hq Hb. pose proof (pow2_pos j Hj) as Pj.
  set (l := Z.log2 n). assert (Hl : 2 ^ l <= n < 2 ^ Z.succ l) by (apply Z.log2_spec; auto).
  assert (Hl0 : 0 <= l) by apply Z.log2_nonneg.
  assert (W : exists u, is_f64 u /\ f_expo u <> 2047 /\ f_sign u = s /\ f_mag u = n).
  { destruct (Z.lt_ge_cases n (2 ^ 52)) as [Small|Big].
    - exists (mk s 0 n). splits.
      + apply mk_f64; lia.
      + rewrite expo_mk by lia. lia.
      + apply sign_mk; lia.
      + unfold f_mag. rewrite mant_mk, unit_mk by lia. cbn [Z.eqb]. change (2 ^ (-1074 + 1074)) with 1. lia.
    - assert (L52 : 52 <= l) by (apply Z.log2_le_pow2; lia).
      assert (Lb : l < 2098) by (apply Z.log2_lt_pow2; lia).
      set (k := l - 52). pose proof (pow2_pos k ltac:(lia)) as Pk.
      assert (Kj : k <= j).
      { apply Z.lt_succ_r. apply (Z.pow_lt_mono_r_iff 2); try lia.
        assert (2 ^ l < 2 ^ 53 * 2 ^ j) by nia. rewrite <- Z.pow_add_r in H by lia.
        apply (Z.pow_lt_mono_r_iff 2) in H; try lia. apply Z.pow_lt_mono_r; lia. }
      set (p := q * 2 ^ (j - k)).
      assert (Ep : n = p * 2 ^ k) by (unfold p; rewrite En, <- Z.mul_assoc, <- Z.pow_add_r by lia; do 2 f_equal; lia).
      assert (Hp : 2 ^ 52 <= p < 2 ^ 53).
      { replace l with (52 + k) in Hl by lia. replace (Z.succ (52 + k)) with (53 + k) in Hl by lia.
        rewrite !Z.pow_add_r in Hl by lia. rewrite Ep in Hl. split; nia. }
      exists (mk s (k + 1) (p - 2 ^ 52)). assert (0 <= k + 1 < 2048) by lia. assert (0 <= p - 2 ^ 52 < 2 ^ 52) by (nums; lia). splits.
      + apply mk_f64; lia.
      + rewrite expo_mk by lia. unfold k. lia.
      + apply sign_mk; lia.
      + unfold f_mag. rewrite mant_mk, unit_mk by lia. destruct (Z.eqb_spec (k + 1) 0); [lia|].
        replace (k + 1 - 1075 + 1074) with k by lia. lia. }
  destruct W as (u & U1 & U2 & U3 & U4). exists u. splits; auto.
  rewrite <- U3. rewrite <- (round_id u) at 2; auto.
  - apply (round_unique _ _ _ _ _ 1074); try lia.
    + unfold f_mag in U4. pose proof (mant_range u). pose proof (pow2_pos _ (unit_range u)). nia.
    + apply unit_range.
    + change (2 ^ (-1074 + 1074)) with 1. unfold f_mag in U4. lia.
  - unfold f_mag in U4. pose proof (mant_range u). pose proof (pow2_pos _ (unit_range u)). nia.
Qed.

(* ------------------------------------------------------------------ *)
(** * Normalization *)

Definition finite (u : Z) : Prop := is_f64 u /\ f_expo u <> 2047.
Definition nonzero (u : Z) : Prop := f_mant u <> 0.

Lemma zero_iff u : f_is_zero u = true <-> f_mant u = 0.
Proof.
  unfold f_is_zero, f_mant. pose proof (frac_range u). nums.
  destruct (Z.eqb_spec (f_expo u) 0), (Z.eqb_spec (f_frac u) 0); cbn [andb]; split; intros; try discriminate; auto; lia.
Qed.

Lemma special_false u : finite u -> nonzero u -> f_is_zero u || f_is_inf u || f_is_nan u = false.
Proof.
  intros [_ Hf] Hn. destruct (f_is_zero u) eqn:E; [apply zero_iff in E; contradiction|].
  unfold f_is_inf, f_is_nan. destruct (Z.eqb_spec (f_expo u) 2047); [contradiction|]. reflexivity.
Qed.

Lemma abs_mk s E f : 0 <= E < 2048 -> 0 <= f < 2 ^ 52 -> f_abs (mk s E f) = mk false E f.
Proof.
  intros HE Hf. unfold f_abs, mk. destruct s.
  - replace (2 ^ 63 + E * 2 ^ 52 + f) with ((E * 2 ^ 52 + f) + 1 * 2 ^ 63) by lia. rewrite Z.mod_add by (nums; lia). apply Z.mod_small. nums; lia.
  - apply Z.mod_small. nums; lia.
Qed.

Lemma key_mk s E f : 0 <= E < 2048 -> 0 <= f < 2 ^ 52 -> f_key (mk s E f) = if s then - (E * 2 ^ 52 + f) else E * 2 ^ 52 + f.
Proof. intros. unfold f_key. rewrite sign_mk, abs_mk by auto. unfold mk. destruct s; lia. Qed.

Lemma nan_mk s E f : 0 <= E < 2047 -> 0 <= f < 2 ^ 52 -> f_is_nan (mk s E f) = false.
Proof. intros. unfold f_is_nan. rewrite expo_mk by lia. destruct (Z.eqb_spec E 2047); [lia|reflexivity]. Qed.

Lemma is_subnormal u : finite u -> f_lt (f_abs u) (2 ^ 52) = (f_expo u =? 0).
Proof.
  intros [H Hf]. pose proof (expo_range u). pose proof (frac_range u). rewrite (mk_fields u H) at 1. rewrite abs_mk by lia.
  change (2 ^ 52) with (mk false 1 0) at 1. unfold f_lt. rewrite !nan_mk by (nums; lia). cbn [negb andb].
  rewrite !key_mk by (nums; lia). destruct (Z.eqb_spec (f_expo u) 0) as [->|]; [apply Z.ltb_lt|apply Z.ltb_ge]; nums; lia.
Qed.

(** composition.rs:158-162 and 208-212 *)
Definition normalize (x : Z) : Z * Z :=
  if f_lt (f_abs x) (2 ^ 52) then (f_mul_pow2 x 52, -52) else (x, 0).

Lemma normalize_ok x : finite x -> nonzero x ->
  exists E f e, normalize x = (mk (f_sign x) E f, e) /\ 1 <= E <= 2046 /\ 0 <= f < 2 ^ 52 /\ (e = 0 \/ (e = -52 /\ E <= 52)) /\
    f_mant x * 2 ^ (f_unit x + 1126) = (2 ^ 52 + f) * 2 ^ (E - 1075 + e + 1126).
Proof.
  intros Hx Hn. pose proof Hx as [H Hf]. pose proof (expo_range x) as HE. pose proof (frac_range x) as HF.
  unfold normalize. rewrite is_subnormal by auto. destruct (Z.eqb_spec (f_expo x) 0) as [E0|E0].
  - assert (Hm : f_mant x = f_frac x) by (unfold f_mant; rewrite E0; reflexivity).
    assert (Hu : f_unit x = -1074) by (unfold f_unit; rewrite E0; reflexivity).
    assert (Fp : 0 < f_frac x) by (unfold nonzero in Hn; lia).
    set (l := Z.log2 (f_frac x)). assert (Hl : 2 ^ l <= f_frac x < 2 ^ Z.succ l) by (apply Z.log2_spec; auto).
    assert (Hl0 : 0 <= l <= 51) by (split; [apply Z.log2_nonneg|]; assert (l < 52) by (apply Z.log2_lt_pow2; lia); lia).
    set (f := f_frac x * 2 ^ (52 - l) - 2 ^ 52).
    assert (Pf : 0 <= f < 2 ^ 52).
    { unfold f. pose proof (pow2_pos (52 - l) ltac:(lia)).
      assert (A : 2 ^ l * 2 ^ (52 - l) = 2 ^ 52) by (rewrite <- Z.pow_add_r by lia; f_equal; lia).
      assert (B : 2 ^ Z.succ l * 2 ^ (52 - l) = 2 ^ 53) by (rewrite <- Z.pow_add_r by lia; f_equal; lia).
      nums. nia. }
    exists (l + 1), f, (-52). splits; try lia; auto.
    + unfold f_mul_pow2. f_equal. rewrite Hm, Hu.
      rewrite <- (round_id (mk (f_sign x) (l + 1) f)).
      * rewrite sign_mk, mant_mk, unit_mk by lia. destruct (Z.eqb_spec (l + 1) 0); [lia|].
        apply (round_unique _ _ _ _ _ 1074); try lia; try (nums; lia).
        replace (2 ^ 52 + f) with (f_frac x * 2 ^ (52 - l)) by (unfold f; lia).
        rewrite <- Z.mul_assoc, <- Z.pow_add_r by lia. do 2 f_equal. lia.
      * apply mk_f64; lia.
      * rewrite expo_mk; lia.
      * rewrite mant_mk by lia. destruct (Z.eqb_spec (l + 1) 0); nums; lia.
    + rewrite Hm, Hu. replace (2 ^ 52 + f) with (f_frac x * 2 ^ (52 - l)) by (unfold f; lia).
      rewrite <- Z.mul_assoc, <- Z.pow_add_r by lia. do 2 f_equal. lia.
  - exists (f_expo x), (f_frac x), 0. splits; try lia; auto.
    + f_equal. now apply mk_fields.
    + unfold f_mant, f_unit. destruct (Z.eqb_spec (f_expo x) 0); [lia|]. do 2 f_equal. lia.
Qed.

(* ------------------------------------------------------------------ *)
(** * float_decompose *)

Lemma decompose_int x : finite x -> nonzero x ->
  exists f e, float_decompose x = (mk (f_sign x) 1022 f, e) /\ 0 <= f < 2 ^ 52 /\ -1073 <= e <= 1024 /\
    f_mant x * 2 ^ (f_unit x + 1126) = (2 ^ 52 + f) * 2 ^ (e + 1073).
Proof.
  intros Hx Hn. destruct (normalize_ok x Hx Hn) as (E & f & e & EN & HE & Hf & He & V).
  unfold float_decompose. rewrite special_false by auto. fold (normalize x). rewrite EN. cbv beta iota zeta.
  rewrite land_expo, expo_mk by lia. exists f, (e + (E - 1022)). splits; auto; try lia.
  - f_equal. change 0x3fe0000000000000 with (1022 * 2 ^ 52). apply set_expo; lia.
  - rewrite V. do 2 f_equal. lia.
Qed.

(* ------------------------------------------------------------------ *)
(** * float_compose *)

Lemma round_tiny s M e : 0 < M < 2 ^ 53 -> e <= -1128 -> f_round s M e = f_zero s.
Proof.
  intros HM He. unfold f_round. destruct (Z.eqb_spec M 0); auto.
  assert (L : Z.log2 M < 53) by (apply Z.log2_lt_pow2; lia).
  rewrite Z.max_r by lia. unfold round_even. destruct (Z.leb_spec (-1022 - 52 - e) 0); [lia|].
  set (k := -1022 - 52 - e) in *. assert (P : 2 ^ 54 <= 2 ^ k) by (apply Z.pow_le_mono_r; lia).
  change (2 ^ 54) with (2 * 2 ^ 53) in P.
  rewrite Z.div_small, Z.mod_small by lia. destruct (Z.compare_spec (2 * M) (2 ^ k)); try lia.
  change ((-1022 + 1022) * 2 ^ 52 + 0) with 0. cbn [Z.ltb Z.compare]. destruct (Z.ltb_spec 0 (2047 * 2 ^ 52)); [lia|nums; lia].
Qed.

Lemma round_huge s M e : 2 ^ 52 <= M < 2 ^ 53 -> 972 <= e -> f_round s M e = f_infinity s.
Proof.
  intros HM He. unfold f_round. destruct (Z.eqb_spec M 0); [nums; lia|].
  assert (L : Z.log2 M = 52) by (apply Z.log2_unique; [lia|]; change (2 ^ Z.succ 52) with (2 ^ 53); lia).
  rewrite L, Z.max_l by lia. replace (52 + e - 52 - e) with 0 by lia. unfold round_even. cbn [Z.leb Z.compare]. change (2 ^ (- 0)) with 1.
  destruct (Z.ltb_spec ((52 + e + 1022) * 2 ^ 52 + M * 1) (2047 * 2 ^ 52)); [nums; lia|reflexivity].
Qed.

Lemma i32_ok x : - 2 ^ 31 <= x < 2 ^ 31 -> i32 x = Ok x.
Proof. intros H. unfold i32. destruct (Z.leb_spec (- 2 ^ 31) x), (Z.ltb_spec x (2 ^ 31)); try lia. reflexivity. Qed.

(** C32: float_compose is the correctly rounded m 2^e, for every finite m and
    every exponent that does not overflow the i32 additions *)
Theorem C32_compose_int m e : finite m -> nonzero m -> - 2 ^ 31 + 1074 <= e < 2 ^ 31 - 1023 ->
  float_compose m e = Ok (f_round (f_sign m) (f_mant m) (f_unit m + e)).
Proof.
  intros Hx Hn Hr. destruct (normalize_ok m Hx Hn) as (E & f & e0 & EN & HE & Hf & He & V).
  unfold float_compose. rewrite special_false by auto. fold (normalize m). rewrite EN. cbv beta iota zeta.
  change (2 ^ 31) with 2147483648 in Hr.
  rewrite i32_ok by (change (2 ^ 31) with 2147483648; lia). cbn [bind].
  rewrite land_expo, expo_mk by lia.
  rewrite i32_ok by (change (2 ^ 31) with 2147483648; lia). cbn [bind].
  set (exp := e + e0 + (E - 1023)).
  assert (Mp : 0 < f_mant m) by (pose proof (mant_range m); unfold nonzero in Hn; lia).
  assert (RR : f_round (f_sign m) (f_mant m) (f_unit m + e) = f_round (f_sign m) (2 ^ 52 + f) (exp - 52)).
  { pose proof (unit_range m). set (K := 1126 + Z.abs e).
    apply (round_unique _ _ _ _ _ K); try lia; try (nums; lia).
    apply (f_equal (fun z => z * 2 ^ (e + Z.abs e))) in V. rewrite <- !Z.mul_assoc, <- !Z.pow_add_r in V by lia.
    replace (f_unit m + e + K) with (f_unit m + 1126 + (e + Z.abs e)) by (unfold K; lia).
    replace (exp - 52 + K) with (E - 1075 + e0 + 1126 + (e + Z.abs e)) by (unfold K, exp; lia). exact V. }
  rewrite RR. clear RR V.
  destruct (Z.ltb_spec exp (-1075)).
  { rewrite round_tiny by (nums; lia). rewrite sign_mk by lia. reflexivity. }
  destruct (Z.ltb_spec 1023 exp).
  { rewrite round_huge by (nums; lia).
    assert (S : f_lt (mk (f_sign m) E f) 0 = f_sign m).
    { change 0 with (mk false 0 0) at 1. unfold f_lt. rewrite !nan_mk by (nums; lia). cbn [negb andb]. rewrite !key_mk by (nums; lia).
      destruct (f_sign m); [apply Z.ltb_lt|apply Z.ltb_ge]; nums; lia. }
    rewrite S. destruct (f_sign m); reflexivity. }
  destruct (Z.ltb_spec exp (-1022)); cbv beta iota zeta.
  - rewrite Z.shiftl_mul_pow2 by lia. rewrite set_expo by lia.
    unfold f_mul_pow2. rewrite sign_mk, mant_mk, unit_mk by lia. destruct (Z.eqb_spec (exp + 53 + 1023) 0); [lia|]. do 2 f_equal. lia.
  - rewrite Z.shiftl_mul_pow2 by lia. rewrite set_expo by lia.
    unfold f_mul_pow2. rewrite sign_mk, mant_mk, unit_mk by lia. destruct (Z.eqb_spec (exp + 1023) 0); [lia|]. do 2 f_equal. lia.
Qed.
Print Assumptions C32_compose_int.

(** C32: composing what was decomposed gives back the same bits, for every f64
    (subnormal numbers, zeros, infinities and NaNs included) *)
Theorem C32_roundtrip x : is_f64 x ->
  let '(m, e) := float_decompose x in float_compose m e = Ok x.
Proof.
  intros H. destruct (f_is_zero x || f_is_inf x || f_is_nan x) eqn:Sp.
  { unfold float_decompose. rewrite Sp. unfold float_compose. rewrite Sp. reflexivity. }
  assert (Hx : finite x).
  { split; auto. intros E. unfold f_is_inf, f_is_nan in Sp. rewrite E in Sp. cbn in Sp. destruct (f_frac x =? 0), (f_is_zero x); discriminate. }
  assert (Hn : nonzero x).
  { intros Z0. apply zero_iff in Z0. rewrite Z0 in Sp. discriminate. }
  destruct (decompose_int x Hx Hn) as (f & e & -> & Hf & He & V).
  assert (Hm : finite (mk (f_sign x) 1022 f)) by (split; [apply mk_f64; lia|rewrite expo_mk by lia; lia]).
  rewrite C32_compose_int; auto.
  - rewrite sign_mk, mant_mk, unit_mk by lia. cbn [Z.eqb]. f_equal.
    assert (Mp : 0 < f_mant x) by (pose proof (mant_range x); unfold nonzero in Hn; lia).
    rewrite <- (round_id x) at 2; [|apply Hx|apply Hx|auto]. pose proof (unit_range x).
    apply (round_unique _ _ _ _ _ 1126); try lia; try (nums; lia). rewrite V. do 2 f_equal. lia.
  - unfold nonzero. rewrite mant_mk by lia. cbn [Z.eqb]. nums. lia.
  - change (2 ^ 31) with 2147483648. lia.
Qed.
Print Assumptions C32_roundtrip.

(* ------------------------------------------------------------------ *)
(** * Real values *)

Lemma pow2_IZR k : 0 <= k -> IZR (2 ^ k) = powerRZ 2 k.
Proof.
  intros Hk. rewrite <- (Z2Nat.id k) by auto. rewrite <- pow_powerRZ, <- pow_IZR. reflexivity.
Qed.
Lemma pw_pos k : (0 < powerRZ 2 k)%R.
Proof. apply powerRZ_lt. lra. Qed.
Lemma pw_add a b : powerRZ 2 (a + b) = (powerRZ 2 a * powerRZ 2 b)%R.
Proof. apply powerRZ_add. lra. Qed.
Lemma pw_le a b : a <= b -> (powerRZ 2 a <= powerRZ 2 b)%R.
Proof.
  intros H. replace b with (a + (b - a)) by lia. rewrite pw_add. rewrite <- (pow2_IZR (b - a)) by lia.
  pose proof (pw_pos a). assert (1 <= IZR (2 ^ (b - a)))%R by (apply IZR_le; pose proof (pow2_pos (b - a) ltac:(lia)); lia). nra.
Qed.
Lemma pw_1 : powerRZ 2 0 = 1%R. Proof. reflexivity. Qed.

(** the value is the integer [f_int] in units of 2^-1074 *)
Lemma fval_int u : fval u = (IZR (f_int u) * powerRZ 2 (-1074))%R.
Proof.
  unfold fval. cbv zeta. rewrite f_int_mag. unfold f_mag, f_mant, f_unit. pose proof (expo_range u).
  destruct (Z.eqb_spec (f_expo u) 0).
  - change (2 ^ (-1074 + 1074)) with 1. rewrite Z.mul_1_r. destruct (f_sign u); [rewrite opp_IZR|]; ring.
  - assert (P : powerRZ 2 (f_expo u - 1075) = (IZR (2 ^ (f_expo u - 1075 + 1074)) * powerRZ 2 (-1074))%R).
    { rewrite pow2_IZR, <- pw_add by lia. f_equal. lia. }
    rewrite P. destruct (f_sign u); [rewrite opp_IZR|]; rewrite mult_IZR; ring.
Qed.

Definition sgn (s : bool) : R := if s then (-1)%R else 1%R.

Lemma fval_mant u : fval u = (sgn (f_sign u) * (IZR (f_mant u) * powerRZ 2 (f_unit u)))%R.
Proof.
  unfold fval, f_mant, f_unit, sgn. cbv zeta. destruct (f_expo u =? 0), (f_sign u); ring.
Qed.

Lemma fval_abs u : Rabs (fval u) = (IZR (f_mant u) * powerRZ 2 (f_unit u))%R.
Proof.
  rewrite fval_mant, Rabs_mult. rewrite (Rabs_pos_eq (IZR _ * _)).
  - unfold sgn. destruct (f_sign u); [rewrite Rabs_left by lra|rewrite Rabs_R1]; ring.
  - apply Rmult_le_pos; [apply (IZR_le 0); apply mant_range|left; apply pw_pos].
Qed.

(** ** round to nearest *)

Lemma round_even_half m k : 0 <= m -> (Rabs (IZR (round_even m k) - IZR m * powerRZ 2 (- k)) <= / 2)%R.
Proof.
  intros Hm. unfold round_even. cbv zeta. destruct (Z.leb_spec k 0).
  - rewrite mult_IZR, pow2_IZR by lia. rewrite Rminus_eq_0, Rabs_R0. lra.
  - pose proof (pow2_pos k ltac:(lia)) as Pk. pose proof (Z.div_mod m (2 ^ k) ltac:(lia)) as D. pose proof (Z.mod_pos_bound m (2 ^ k) Pk) as B.
    set (q := m / 2 ^ k) in *. set (r := m mod 2 ^ k) in *. clearbody q r.
    pose proof (pw_pos (- k)) as Pn.
    assert (U : (IZR (2 ^ k) * powerRZ 2 (- k) = 1)%R) by (rewrite pow2_IZR, <- pw_add by lia; replace (k + - k) with 0 by lia; apply pw_1).
    assert (Em : (IZR m * powerRZ 2 (- k) = IZR q + IZR r * powerRZ 2 (- k))%R).
    { rewrite D, plus_IZR, mult_IZR. rewrite Rmult_plus_distr_r. replace (IZR (2 ^ k) * IZR q * powerRZ 2 (- k))%R with (IZR q * (IZR (2 ^ k) * powerRZ 2 (- k)))%R by ring. rewrite U. ring. }
    rewrite Em. assert (Br : (0 <= IZR r)%R) by (apply (IZR_le 0); lia). assert (Br2 : (IZR r < IZR (2 ^ k))%R) by (apply IZR_lt; lia).
    assert (Q1 : (IZR (q + 1) = IZR q + 1)%R) by (rewrite plus_IZR; reflexivity).
    destruct (Z.compare_spec (2 * r) (2 ^ k)) as [Eq|Lt|Gt].
    + apply (f_equal IZR) in Eq. rewrite mult_IZR in Eq.
      destruct (Z.even q); rewrite ?Q1; apply Rabs_le; nra.
    + apply IZR_lt in Lt. rewrite mult_IZR in Lt. apply Rabs_le. nra.
    + apply IZR_lt in Gt. rewrite mult_IZR in Gt. rewrite Q1. apply Rabs_le. nra.
Qed.

Lemma Rabs_le_between x a : (Rabs x <= a)%R -> (- a <= x <= a)%R.
Proof. unfold Rabs. destruct (Rcase_abs x); lra. Qed.

(** the rounded value *)
Lemma round_value s m e : 0 < m ->
  let ex := Z.max (Z.log2 m + e) (-1022) in let q := round_even m (ex - 52 - e) in
  0 <= q <= 2 ^ 53 /\ (-1022 < ex -> 2 ^ 52 <= q) /\
  ((ex + 1022) * 2 ^ 52 + q < 2047 * 2 ^ 52 ->
   finite (f_round s m e) /\ f_sign (f_round s m e) = s /\ fval (f_round s m e) = (sgn s * (IZR q * powerRZ 2 (ex - 52)))%R).
Proof.
  intros Hm ex q. pose proof (round_even_half m (ex - 52 - e) ltac:(lia)) as H. fold q in H.
  set (t := (IZR m * powerRZ 2 (- (ex - 52 - e)))%R) in *.
  destruct (Z.log2_spec m Hm) as [L1 L2]. assert (Hl : 0 <= Z.log2 m) by apply Z.log2_nonneg. set (l := Z.log2 m) in *.
  assert (T2 : (t < IZR (2 ^ 53))%R).
  { unfold t. apply IZR_lt in L2. rewrite pow2_IZR in L2 by lia. pose proof (pw_pos (- (ex - 52 - e))).
    apply Rlt_le_trans with (powerRZ 2 (Z.succ l) * powerRZ 2 (- (ex - 52 - e)))%R; [nra|].
    rewrite <- pw_add, pow2_IZR by lia. apply pw_le. unfold ex. lia. }
  assert (T0 : (0 <= t)%R) by (unfold t; apply Rmult_le_pos; [apply (IZR_le 0); lia|left; apply pw_pos]).
  assert (T1 : -1022 < ex -> (IZR (2 ^ 52) <= t)%R).
  { intros He. unfold t. apply IZR_le in L1. rewrite pow2_IZR in L1 by lia. pose proof (pw_pos (- (ex - 52 - e))).
    apply Rle_trans with (powerRZ 2 l * powerRZ 2 (- (ex - 52 - e)))%R; [|nra].
    rewrite <- pw_add, pow2_IZR by lia. apply pw_le. unfold ex in *. lia. }
  apply Rabs_le_between in H.
  assert (Q1 : 0 <= q <= 2 ^ 53).
  { split; [apply Z.lt_succ_r, lt_IZR; rewrite succ_IZR; lra|apply Z.lt_succ_r, lt_IZR; rewrite succ_IZR; lra]. }
  assert (Q2 : -1022 < ex -> 2 ^ 52 <= q).
  { intros He. specialize (T1 He). apply Z.lt_succ_r, lt_IZR. rewrite succ_IZR. lra. }
  split; [exact Q1|]. split; [exact Q2|]. intros Hov.
  assert (Er : f_round s m e = f_zero s + ((ex + 1022) * 2 ^ 52 + q)).
  { unfold f_round. destruct (Z.eqb_spec m 0); [lia|]. fold l. fold ex. fold q.
    destruct (Z.ltb_spec ((ex + 1022) * 2 ^ 52 + q) (2047 * 2 ^ 52)); [reflexivity|lia]. }
  assert (Hex : -1022 <= ex) by (unfold ex; lia).
  assert (W : exists E f, f_round s m e = mk s E f /\ 0 <= E < 2047 /\ 0 <= f < 2 ^ 52 /\
     (IZR (if (E =? 0)%Z then f else 2 ^ 52 + f) * powerRZ 2 (if (E =? 0)%Z then -1074 else E - 1075) = IZR q * powerRZ 2 (ex - 52))%R).
  { destruct (Z.lt_ge_cases q (2 ^ 52)) as [A|A].
    - assert (ex = -1022) by lia. exists 0, q. splits; try lia.
      + rewrite Er, H0. unfold mk, f_zero. lia.
      + cbn [Z.eqb]. rewrite H0. reflexivity.
    - destruct (Z.eq_dec q (2 ^ 53)) as [B|B].
      + exists (ex + 1024), 0. assert (0 <= ex + 1024 < 2047) by (rewrite B in Hov; nums; lia). splits; try (nums; lia).
        * rewrite Er, B. unfold mk, f_zero. nums. lia.
        * destruct (Z.eqb_spec (ex + 1024) 0); [lia|]. rewrite B, Z.add_0_r. rewrite (pow2_IZR 53), (pow2_IZR 52), <- !pw_add by lia. f_equal. lia.
      + exists (ex + 1023), (q - 2 ^ 52). assert (0 <= ex + 1023 < 2047) by (nums; lia). splits; try (nums; lia).
        * rewrite Er. unfold mk, f_zero. nums. lia.
        * destruct (Z.eqb_spec (ex + 1023) 0); [lia|]. replace (2 ^ 52 + (q - 2 ^ 52)) with q by lia. do 2 f_equal. lia. }
  destruct W as (E & f & -> & HE & Hf & V). splits.
  - split; [apply mk_f64; lia|]. rewrite expo_mk by lia. lia.
  - apply sign_mk; lia.
  - rewrite fval_mant, sign_mk, mant_mk, unit_mk by lia. rewrite V. reflexivity.
Qed.

Lemma sgn_sq s : (sgn s * sgn s = 1)%R. Proof. destruct s; unfold sgn; ring. Qed.
Lemma sgn_abs s : Rabs (sgn s) = 1%R. Proof. destruct s; unfold sgn; [rewrite Rabs_left by lra; ring|apply Rabs_R1]. Qed.

(** no finite number is closer to v than the rounded one *)
Lemma round_nearest s m e : 0 < m < 2 ^ 53 ->
  let v := (sgn s * (IZR m * powerRZ 2 e))%R in (Rabs v < powerRZ 2 1024)%R ->
  finite (f_round s m e) /\ f_sign (f_round s m e) = s /\
  forall z, finite z -> (Rabs (fval (f_round s m e) - v) <= Rabs (fval z - v))%R.
Proof.
  intros [Hm Hm2] v Hv. destruct (round_value s m e Hm) as (Q1 & Q2 & W).
  set (ex := Z.max (Z.log2 m + e) (-1022)) in *. set (q := round_even m (ex - 52 - e)) in *.
  pose proof (round_even_half m (ex - 52 - e) ltac:(lia)) as H. fold q in H.
  set (t := (IZR m * powerRZ 2 (- (ex - 52 - e)))%R) in *.
  destruct (Z.log2_spec m Hm) as [L1 L2]. assert (Hl : 0 <= Z.log2 m) by apply Z.log2_nonneg. set (l := Z.log2 m) in *.
  assert (Va : Rabs v = (IZR m * powerRZ 2 e)%R).
  { unfold v. rewrite Rabs_mult, sgn_abs, Rmult_1_l. apply Rabs_pos_eq. apply Rmult_le_pos; [apply (IZR_le 0); lia|left; apply pw_pos]. }
  assert (Lb : l + e < 1024).
  { destruct (Z.lt_ge_cases (l + e) 1024); auto. exfalso. rewrite Va in Hv. apply IZR_le in L1. rewrite pow2_IZR in L1 by lia.
    assert (powerRZ 2 1024 <= powerRZ 2 (l + e))%R by (apply pw_le; lia). rewrite pw_add in H1. pose proof (pw_pos e). nra. }
  assert (Lm : l <= 52) by (assert (l < 53) by (apply Z.log2_lt_pow2; lia); lia).
  assert (Hex : -1022 <= ex <= 1023) by (unfold ex; lia).
  assert (Vt : (IZR m * powerRZ 2 e = t * powerRZ 2 (ex - 52))%R).
  { unfold t. rewrite Rmult_assoc, <- pw_add. do 2 f_equal. lia. }
  assert (Hov : (ex + 1022) * 2 ^ 52 + q < 2047 * 2 ^ 52).
  { destruct (Z.eq_dec ex 1023) as [E|E]; [|nums; lia].
    assert (q < 2 ^ 53); [|nums; lia].
    assert (Ek : ex - 52 - e <= 0) by (unfold ex in *; lia).
    assert (Eq : q = m * 2 ^ (- (ex - 52 - e))) by (unfold q, round_even; destruct (Z.leb_spec (ex - 52 - e) 0); [reflexivity|lia]).
    rewrite Eq. assert (- (ex - 52 - e) = 52 - l) by (unfold ex in *; lia). rewrite H0.
    apply Z.lt_le_trans with (2 ^ Z.succ l * 2 ^ (52 - l)); [pose proof (pow2_pos (52 - l) ltac:(lia)); nia|].
    rewrite <- Z.pow_add_r by lia. apply Z.pow_le_mono_r; lia. }
  destruct (W Hov) as (W1 & W2 & W3). split; [exact W1|]. split; [exact W2|]. intros z Hz. rewrite W3.
  set (u := powerRZ 2 (ex - 52)) in *. assert (Pu : (0 < u)%R) by apply pw_pos.
  assert (D : forall a, Rabs (a - v) = Rabs (sgn s * a - t * u)).
  { intros a. unfold v. rewrite Vt. replace (sgn s * a - t * u)%R with (sgn s * (a - sgn s * (t * u)))%R.
    - rewrite Rabs_mult, sgn_abs. ring.
    - rewrite Rmult_minus_distr_l, <- Rmult_assoc, sgn_sq. ring. }
  rewrite !D. rewrite <- Rmult_assoc, sgn_sq, Rmult_1_l.
  assert (Int : forall j, (Rabs (IZR q * u - t * u) <= Rabs (IZR j * u - t * u))%R).
  { intros j. rewrite <- !Rmult_minus_distr_r, !Rabs_mult. apply Rmult_le_compat_r; [apply Rabs_pos|].
    destruct (Z.eq_dec j q) as [->|N]; [lra|]. apply Rle_trans with (/ 2)%R; [exact H|].
    apply Rabs_le_between in H.
    assert (C : (IZR j <= IZR q - 1)%R \/ (IZR q + 1 <= IZR j)%R).
    { destruct (Z.lt_total j q) as [C|[C|C]]; [left|contradiction|right].
      - rewrite <- minus_IZR. apply IZR_le. lia.
      - rewrite <- plus_IZR. apply IZR_le. lia. }
    destruct C; [rewrite Rabs_left1 by lra|rewrite Rabs_pos_eq by lra]; lra. }
  assert (Mz : forall k, ex - 52 <= f_unit z -> exists j, (sgn k * (IZR (f_mant z) * powerRZ 2 (f_unit z)) = IZR j * u)%R).
  { intros k Hk. exists ((if k then -1 else 1) * (f_mant z * 2 ^ (f_unit z - (ex - 52)))). rewrite !mult_IZR, pow2_IZR by lia.
    replace (f_unit z) with ((f_unit z - (ex - 52)) + (ex - 52)) at 1 by lia. rewrite pw_add. fold u. destruct k; unfold sgn; ring. }
  assert (Ez : (sgn s * fval z)%R = (sgn (xorb s (f_sign z)) * (IZR (f_mant z) * powerRZ 2 (f_unit z)))%R).
  { rewrite fval_mant. destruct s, (f_sign z); unfold sgn, xorb; ring. }
  rewrite Ez. destruct (Z.le_gt_cases (ex - 52) (f_unit z)) as [C|C].
  { destruct (Mz (xorb s (f_sign z)) C) as (j & ->). apply Int. }
  (* smaller than 2^ex *)
  assert (Hex2 : -1022 < ex) by (pose proof (unit_range z); lia).
  apply Rle_trans with (1 := Int (2 ^ 52)).
  assert (T : (IZR (2 ^ 52) <= t)%R).
  { unfold t. apply IZR_le in L1. rewrite pow2_IZR in L1 by lia. pose proof (pw_pos (- (ex - 52 - e))).
    apply Rle_trans with (powerRZ 2 l * powerRZ 2 (- (ex - 52 - e)))%R; [|nra].
    rewrite <- pw_add, pow2_IZR by lia. apply pw_le. unfold ex in *. lia. }
  assert (Z1 : (sgn (xorb s (f_sign z)) * (IZR (f_mant z) * powerRZ 2 (f_unit z)) <= IZR (2 ^ 52) * u)%R).
  { assert (M2 : (IZR (f_mant z) * powerRZ 2 (f_unit z) <= IZR (2 ^ 52) * u)%R).
    { pose proof (mant_range z) as [M0 M]. apply IZR_lt in M. apply Rle_trans with (IZR (2 ^ 53) * powerRZ 2 (f_unit z))%R.
      - pose proof (pw_pos (f_unit z)). nra.
      - unfold u. rewrite (pow2_IZR 53), (pow2_IZR 52), <- !pw_add by lia. apply pw_le. lia. }
    assert (M3 : (0 <= IZR (f_mant z) * powerRZ 2 (f_unit z))%R) by (apply Rmult_le_pos; [apply (IZR_le 0); apply mant_range|left; apply pw_pos]).
    unfold sgn. destruct (xorb s (f_sign z)); lra. }
  rewrite Rabs_left1, Rabs_left1; nra.
Qed.

(** C32: every finite nonzero number is a mantissa in [1/2, 1) (with the sign
    of the number) times a power of two; zero, infinities and NaN are returned
    as they are with exponent zero *)
Theorem C32_decompose x : is_f64 x ->
  let '(m, e) := float_decompose x in
  (finite x -> nonzero x -> finite m /\ f_sign m = f_sign x /\ (/ 2 <= Rabs (fval m) < 1)%R /\ fval x = (fval m * powerRZ 2 e)%R) /\
  (~ finite x \/ ~ nonzero x -> m = x /\ e = 0).
Proof.
  intros H. destruct (f_is_zero x || f_is_inf x || f_is_nan x) eqn:Sp.
  { unfold float_decompose. rewrite Sp. split; auto. intros Hx Hn. exfalso. rewrite special_false in Sp by auto. discriminate. }
  assert (Hx : finite x).
  { split; auto. intros E. unfold f_is_inf, f_is_nan in Sp. rewrite E in Sp. cbn in Sp. destruct (f_frac x =? 0), (f_is_zero x); discriminate. }
  assert (Hn : nonzero x).
  { intros Z0. apply zero_iff in Z0. rewrite Z0 in Sp. discriminate. }
  destruct (decompose_int x Hx Hn) as (f & e & -> & Hf & He & V). split; [|intros [?|?]; contradiction]. intros _ _. splits.
  - split; [apply mk_f64; lia|]. rewrite expo_mk by lia. lia.
  - apply sign_mk; lia.
  - rewrite fval_abs, mant_mk, unit_mk by lia. cbn [Z.eqb]. change (1022 - 1075) with (-53).
    assert (P : (IZR (2 ^ 52) * powerRZ 2 (-53) = / 2)%R) by (rewrite pow2_IZR, <- pw_add by lia; change (52 + -53) with (-1); unfold powerRZ; change (Pos.to_nat 1) with 1%nat; rewrite pow_1; reflexivity).
    rewrite <- P. apply Rmult_le_compat_r; [left; apply pw_pos|apply IZR_le; lia].
  - rewrite fval_abs, mant_mk, unit_mk by lia. cbn [Z.eqb]. change (1022 - 1075) with (-53).
    assert (P : (IZR (2 ^ 53) * powerRZ 2 (-53) = 1)%R) by (rewrite pow2_IZR, <- pw_add by lia; apply pw_1).
    rewrite <- P. apply Rmult_lt_compat_r; [apply pw_pos|apply IZR_lt; nums; lia].
  - rewrite !fval_mant, sign_mk, mant_mk, unit_mk by lia. cbn [Z.eqb]. rewrite Rmult_assoc. f_equal.
    apply (f_equal IZR) in V. pose proof (unit_range x). rewrite !mult_IZR in V. rewrite !pow2_IZR in V by lia. rewrite !pw_add in V.
    pose proof (pw_pos 1126). apply (Rmult_eq_reg_r (powerRZ 2 1126)); [|lra]. rewrite Rmult_assoc, V. rewrite !Rmult_assoc. rewrite <- !pw_add. do 2 f_equal. lia.
Qed.
Print Assumptions C32_decompose.

(** C32: float_compose m e is the number closest to m 2^e (in particular m 2^e
    itself if that is a f64), an infinity if it is beyond the range *)
Theorem C32_compose m e : finite m -> nonzero m -> - 2 ^ 31 + 1074 <= e < 2 ^ 31 - 1023 ->
  let v := (fval m * powerRZ 2 e)%R in
  exists w, float_compose m e = Ok w /\ f_sign w = f_sign m /\
    ((powerRZ 2 1024 <= Rabs v)%R -> w = f_infinity (f_sign m)) /\
    ((Rabs v < powerRZ 2 1024)%R -> finite w /\ forall z, finite z -> (Rabs (fval w - v) <= Rabs (fval z - v))%R).
Proof.
  intros Hm Hn Hr v. rewrite C32_compose_int by auto. eexists. split; [reflexivity|].
  assert (Mp : 0 < f_mant m < 2 ^ 53) by (pose proof (mant_range m); unfold nonzero in Hn; lia).
  assert (Ev : v = (sgn (f_sign m) * (IZR (f_mant m) * powerRZ 2 (f_unit m + e)))%R) by (unfold v; rewrite fval_mant, pw_add; ring).
  assert (Av : Rabs v = (IZR (f_mant m) * powerRZ 2 (f_unit m + e))%R).
  { rewrite Ev, Rabs_mult, sgn_abs, Rmult_1_l. apply Rabs_pos_eq. apply Rmult_le_pos; [apply (IZR_le 0); lia|left; apply pw_pos]. }
  pose proof (round_nearest (f_sign m) _ (f_unit m + e) Mp) as N. rewrite <- Ev in N. cbv zeta in N.
  assert (Inf : (powerRZ 2 1024 <= Rabs v)%R -> f_round (f_sign m) (f_mant m) (f_unit m + e) = f_infinity (f_sign m)).
  { intros Hv. rewrite Av in Hv. destruct (Z.log2_spec (f_mant m) ltac:(lia)) as [L1 L2]. assert (Hl : 0 <= Z.log2 (f_mant m)) by apply Z.log2_nonneg.
    set (l := Z.log2 (f_mant m)) in *.
    assert (Lb : 1024 <= l + (f_unit m + e)).
    { destruct (Z.le_gt_cases 1024 (l + (f_unit m + e))); auto. exfalso. apply IZR_lt in L2. rewrite pow2_IZR in L2 by lia.
      assert (powerRZ 2 (Z.succ l + (f_unit m + e)) <= powerRZ 2 1024)%R by (apply pw_le; lia). rewrite pw_add in H0. pose proof (pw_pos (f_unit m + e)). nra. }
    destruct (round_value (f_sign m) (f_mant m) (f_unit m + e) ltac:(lia)) as (_ & Q2 & _). fold l in Q2.
    set (ex := Z.max (l + (f_unit m + e)) (-1022)) in *. set (q := round_even (f_mant m) (ex - 52 - (f_unit m + e))) in *.
    unfold f_round. destruct (Z.eqb_spec (f_mant m) 0); [lia|]. fold l. fold ex. fold q.
    specialize (Q2 ltac:(unfold ex; lia)). assert (1024 <= ex) by (unfold ex; lia).
    destruct (Z.ltb_spec ((ex + 1022) * 2 ^ 52 + q) (2047 * 2 ^ 52)); [nums; lia|reflexivity]. }
  splits; auto.
  - destruct (Rlt_le_dec (Rabs v) (powerRZ 2 1024)) as [C|C]; [now apply N|]. rewrite Inf by auto.
    destruct (f_sign m); reflexivity.
  - intros C. destruct (N C) as (N1 & _ & N3). auto.
Qed.
Print Assumptions C32_compose.

(** zero, infinities and NaN are returned as they are *)
Theorem C32_compose_special m e : is_f64 m -> ~ finite m \/ ~ nonzero m -> float_compose m e = Ok m.
Proof.
  intros H Hs. unfold float_compose. destruct (f_is_zero m || f_is_inf m || f_is_nan m) eqn:Sp; auto. exfalso.
  destruct Hs as [Hs|Hs]; apply Hs.
  - split; auto. intros E. unfold f_is_inf, f_is_nan in Sp. rewrite E in Sp. cbn in Sp. destruct (f_frac m =? 0), (f_is_zero m); discriminate.
  - intros Z0. apply zero_iff in Z0. rewrite Z0 in Sp. discriminate.
Qed.

(** Finding: the exponent is added in i32 without a check: 2.0 * 2^i32::MAX is
    beyond the range but the call panics (it wraps around in a release build)
    instead of returning an infinity *)
Theorem C32_compose_overflow_refuted :
  exists m e, finite m /\ nonzero m /\ - 2 ^ 31 <= e < 2 ^ 31 /\ float_compose m e = Panic.
Proof.
  exists 0x4000000000000000, (2 ^ 31 - 1). split; [|split; [|split]].
  - split; [split; reflexivity || discriminate|discriminate].
  - discriminate.
  - split; [discriminate|reflexivity].
  - reflexivity.
Qed.

(* ------------------------------------------------------------------ *)
(** * float_split *)

Lemma f_zero_mk s : f_zero s = mk s 0 0. Proof. unfold f_zero, mk. lia. Qed.
Lemma zero_facts s : finite (f_zero s) /\ f_sign (f_zero s) = s /\ f_int (f_zero s) = 0.
Proof.
  rewrite f_zero_mk. splits.
  - split; [apply mk_f64; nums; lia|]. rewrite expo_mk by (nums; lia). lia.
  - apply sign_mk; nums; lia.
  - unfold f_int. rewrite mant_mk by (nums; lia). cbn [Z.eqb]. destruct (f_sign (mk s 0 0)); lia.
Qed.

Lemma land_mask u k : 0 <= k -> Z.land u (2 ^ k - 1) = u mod 2 ^ k.
Proof. intros. replace (2 ^ k - 1) with (Z.ones k) by (rewrite Z.ones_equiv; lia). apply Z.land_ones; auto. Qed.
Lemma ldiff_mask u k : 0 <= k -> Z.ldiff u (2 ^ k - 1) = u - u mod 2 ^ k.
Proof.
  intros. replace (2 ^ k - 1) with (Z.ones k) by (rewrite Z.ones_equiv; lia). rewrite Z.ldiff_ones_r by auto.
  rewrite Z.shiftl_mul_pow2, Z.shiftr_div_pow2 by auto. pose proof (Z.div_mod u (2 ^ k) ltac:(apply Z.pow_nonzero; lia)). lia.
Qed.

(** an exact subtraction *)
Lemma sub_exact a b q j : f_int a - f_int b <> 0 -> Z.abs (f_int a - f_int b) = q * 2 ^ j -> 0 <= j -> q < 2 ^ 53 ->
  Z.abs (f_int a - f_int b) < 2 ^ 2098 ->
  finite (f_sub a b) /\ f_sign (f_sub a b) = (f_int a - f_int b <? 0) /\ f_int (f_sub a b) = f_int a - f_int b.
Proof.
  intros N E Hj Hq Hb. unfold f_sub. set (d := f_int a - f_int b) in *. destruct (Z.eqb_spec d 0); [contradiction|].
  pose proof (pow2_pos j Hj).
  destruct (representable (d <? 0) (Z.abs d) q j ltac:(lia) E Hj ltac:(nia) Hb) as (u & U1 & U2 & U3 & U4 & ->).
  splits; auto; [split; auto|]. rewrite f_int_mag, U3, U4. destruct (Z.ltb_spec d 0); lia.
Qed.

Lemma split_int x : finite x ->
  let '(i, f) := float_split x in
  finite i /\ finite f /\ f_int i + f_int f = f_int x /\ (exists k, f_int i = k * 2 ^ 1074) /\ Z.abs (f_int f) < 2 ^ 1074 /\
  f_sign i = f_sign x /\ f_sign f = f_sign x.
Proof.
  intros [H Hf]. pose proof (expo_range x) as HE. pose proof (frac_range x) as HF.
  unfold float_split. rewrite land_expo. rewrite land_sign by auto. cbv zeta.
  destruct (zero_facts (f_sign x)) as (Z1 & Z2 & Z3).
  change 0x3ff with 1023. change 0x400 with 1024.
  assert (Big : 52 <= f_expo x - 1023 -> exists k, f_int x = k * 2 ^ 1074).
  { intros. exists ((if f_sign x then -1 else 1) * (f_mant x * 2 ^ (f_unit x))).
    assert (U : f_unit x = f_expo x - 1075) by (unfold f_unit; destruct (Z.eqb_spec (f_expo x) 0); lia).
    unfold f_int. rewrite Z.pow_add_r by lia. destruct (f_sign x); lia. }
  destruct (Z.leb_spec 52 (f_expo x - 1023)) as [C|C].
  - destruct (Z.eqb_spec (f_expo x - 1023) 1024); [lia|]. cbn [andb].
    splits; auto; try (split; auto); try (apply Z1); try lia.
  - destruct (Z.ltb_spec (f_expo x - 1023) 0) as [D|D].
    + splits; auto; try (split; auto); try (apply Z1); try lia; try (rewrite Z3; exists 0; reflexivity).
      rewrite f_int_mag. unfold f_mag.
      assert (L : f_mant x * 2 ^ (f_unit x + 1074) < 2 ^ 1074).
      { pose proof (mant_range x) as M. pose proof (pow2_pos _ (unit_range x)). pose proof (unit_range x).
        apply Z.lt_le_trans with (2 ^ 53 * 2 ^ (f_unit x + 1074)); [nia|]. rewrite <- Z.pow_add_r by lia. apply Z.pow_le_mono_r; [lia|].
        unfold f_unit. destruct (Z.eqb_spec (f_expo x) 0); lia. }
      pose proof (mag_nonneg x). unfold f_mag in H0. destruct (f_sign x); lia.
    + set (k := 52 - (f_expo x - 1023)).
      assert (Mask : Z.shiftr (2 ^ 52 - 1) (f_expo x - 1023) = 2 ^ k - 1).
      { replace (2 ^ 52 - 1) with (Z.ones 52) by (rewrite Z.ones_equiv; lia). rewrite Z.shiftr_div_pow2 by lia.
        rewrite Z.ones_div_pow2 by lia. rewrite Z.ones_equiv. unfold k. lia. }
      rewrite Mask. rewrite land_mask, ldiff_mask by lia.
      pose proof (pow2_pos k ltac:(lia)) as Pk.
      assert (A52 : 2 ^ 52 = 2 ^ (52 - k) * 2 ^ k) by (rewrite <- Z.pow_add_r by lia; f_equal; lia).
      assert (Em : x mod 2 ^ k = f_frac x mod 2 ^ k).
      { unfold f_frac. rewrite A52, Z.mul_comm, Z.rem_mul_r by (apply Z.pow_nonzero || apply pow2_pos; lia).
        rewrite Z.mul_comm, Z.mod_add by lia. rewrite Z.mod_mod by lia. reflexivity. }
      rewrite Em. set (r := f_frac x mod 2 ^ k). pose proof (Z.mod_pos_bound (f_frac x) (2 ^ k) Pk) as Br. fold r in Br.
      pose proof (Z.div_mod (f_frac x) (2 ^ k) ltac:(lia)) as Dm. fold r in Dm. set (qf := f_frac x / 2 ^ k) in *.
      assert (U : f_unit x + 1074 = f_expo x - 1) by (unfold f_unit; destruct (Z.eqb_spec (f_expo x) 0); lia).
      assert (M : f_mant x = 2 ^ 52 + f_frac x) by (unfold f_mant; destruct (Z.eqb_spec (f_expo x) 0); lia).
      assert (P1074 : 2 ^ k * 2 ^ (f_expo x - 1) = 2 ^ 1074) by (rewrite <- Z.pow_add_r by lia; f_equal; unfold k; lia).
      pose proof (pow2_pos (f_expo x - 1) ltac:(lia)) as Pe.
      assert (Ei : f_int x = (if f_sign x then -1 else 1) * ((2 ^ (52 - k) + qf) * 2 ^ 1074 + r * 2 ^ (f_expo x - 1))).
      { unfold f_int. rewrite U, M, A52, Dm, <- P1074. destruct (f_sign x); lia. }
      destruct (Z.eqb_spec r 0) as [R0|R0].
      * splits; auto; try (split; auto); try (apply Z1); try (rewrite Z3; reflexivity).
        -- rewrite Z3. lia.
        -- rewrite Ei, R0. exists ((if f_sign x then -1 else 1) * (2 ^ (52 - k) + qf)). lia.
      * assert (Bq : 0 <= qf) by (apply Z.div_pos; lia).
        assert (Fr : 0 <= f_frac x - r < 2 ^ 52) by nia.
        assert (Ex : x - r = mk (f_sign x) (f_expo x) (f_frac x - r)) by (rewrite (mk_fields x H) at 1; unfold mk; lia).
        set (i := x - r) in *.
        assert (Si : f_sign i = f_sign x) by (rewrite Ex; apply sign_mk; lia).
        assert (Fi : finite i) by (rewrite Ex; split; [apply mk_f64; lia|rewrite expo_mk; lia]).
        assert (Ii : f_int i = (if f_sign x then -1 else 1) * ((2 ^ (52 - k) + qf) * 2 ^ 1074)).
        { unfold f_int. rewrite Si, Ex, mant_mk, unit_mk by lia. destruct (Z.eqb_spec (f_expo x) 0); [lia|].
          replace (f_expo x - 1075 + 1074) with (f_expo x - 1) by lia. rewrite A52, Dm, <- P1074. destruct (f_sign x); lia. }
        assert (Dd : f_int x - f_int i = (if f_sign x then -1 else 1) * (r * 2 ^ (f_expo x - 1))) by lia.
        assert (Rp : 0 < r * 2 ^ (f_expo x - 1)) by nia.
        assert (Rl : r * 2 ^ (f_expo x - 1) < 2 ^ 1074) by nia.
        assert (P2 : 2 ^ 1074 <= 2 ^ 2098) by (apply Z.pow_le_mono_r; lia).
        assert (Pk53 : 2 ^ k <= 2 ^ 53) by (apply Z.pow_le_mono_r; lia).
        destruct (sub_exact x i r (f_expo x - 1)) as (S1 & S2 & S3); try (destruct (f_sign x); lia); try lia.
        splits; auto; try (apply Fi); try (apply S1).
        -- lia.
        -- rewrite Ii. exists ((if f_sign x then -1 else 1) * (2 ^ (52 - k) + qf)). lia.
        -- rewrite S3, Dd. destruct (f_sign x); lia.
        -- rewrite S2, Dd. destruct (f_sign x); [apply Z.ltb_lt|apply Z.ltb_ge]; lia.
Qed.

Lemma int_of_IZR x k : f_int x = k * 2 ^ 1074 -> fval x = IZR k.
Proof.
  intros E. rewrite fval_int, E, mult_IZR, Rmult_assoc, pow2_IZR, <- pw_add by lia. change (1074 + -1074) with 0. change (-1074 + 1074) with 0. rewrite pw_1. ring.
Qed.

(** C32: a finite number is split exactly into an integer and a fraction below
    one, both with its sign *)
Theorem C32_split x : finite x ->
  let '(i, f) := float_split x in
  finite i /\ finite f /\ (fval i + fval f = fval x)%R /\ (exists k, fval i = IZR k) /\ (Rabs (fval f) < 1)%R /\
  f_sign i = f_sign x /\ f_sign f = f_sign x.
Proof.
  intros Hx. pose proof (split_int x Hx) as S. destruct (float_split x) as [i f].
  destruct S as (S1 & S2 & S3 & [k S4] & S5 & S6 & S7). split; [exact S1|]. split; [exact S2|]. splits; auto.
  - rewrite !fval_int, <- S3, plus_IZR. ring.
  - exists k. now apply int_of_IZR.
  - rewrite fval_int, Rabs_mult, (Rabs_pos_eq (powerRZ _ _)) by (left; apply pw_pos). rewrite <- abs_IZR.
    apply IZR_lt in S5. assert (P : (IZR (2 ^ 1074) * powerRZ 2 (-1074) = 1)%R) by (rewrite pow2_IZR, <- pw_add by lia; apply pw_1).
    rewrite <- P. apply Rmult_lt_compat_r; [apply pw_pos|exact S5].
Qed.
Print Assumptions C32_split.

(** NaN gives NaN twice; an infinity is its own integer part *)
Theorem C32_split_special x : is_f64 x -> f_expo x = 2047 ->
  float_split x = (x, if f_frac x =? 0 then f_zero (f_sign x) else x).
Proof.
  intros H E. unfold float_split. rewrite land_expo, land_sign, E by auto. cbv zeta. change (2047 - 0x3ff) with 1024. cbn [Z.leb Z.compare Z.eqb].
  change (52 <=? 1024) with true. change (1024 =? 0x400) with true. cbn [andb].
  assert (S : Z.shiftl x 12 mod 2 ^ 64 = f_frac x * 2 ^ 12).
  { rewrite Z.shiftl_mul_pow2 by lia. change (2 ^ 64) with (2 ^ 52 * 2 ^ 12). rewrite Zmult_mod_distr_r. reflexivity. }
  rewrite S. destruct (Z.eqb_spec (f_frac x) 0) as [->|N]; [reflexivity|]. destruct (Z.eqb_spec (f_frac x * 2 ^ 12) 0); [change (2 ^ 12) with 4096 in *; lia|]. reflexivity.
Qed.

(** Finding: the documentation (and the comment in the code) promises that the
    fractional part of an infinity is NaN; it is a signed zero *)
Theorem C32_split_inf_refuted :
  exists x, f_is_inf x = true /\ f_is_nan (snd (float_split x)) = false.
Proof. exists (f_infinity false). split; reflexivity. Qed.

Lemma finite_iff x : is_f64 x -> f_is_finite x = true <-> finite x.
Proof.
  intros H. unfold f_is_finite, finite. split.
  - intros E. split; auto. apply negb_true_iff, Z.eqb_neq in E. exact E.
  - intros [_ E]. apply negb_true_iff, Z.eqb_neq. exact E.
Qed.

Lemma int_zero_iff x : f_int x = 0 <-> f_is_zero x = true.
Proof.
  rewrite zero_iff. unfold f_int. pose proof (mant_range x). pose proof (pow2_pos _ (unit_range x)).
  split; intros E.
  - destruct (f_sign x); nia.
  - rewrite E. destruct (f_sign x); reflexivity.
Qed.

Lemma is_integer_int x : finite x -> f_is_zero (snd (float_split x)) = true <-> exists k, f_int x = k * 2 ^ 1074.
Proof.
  intros Hx. pose proof (split_int x Hx) as S. destruct (float_split x) as [i f]. destruct S as (_ & _ & S3 & [k S4] & S5 & _). cbn [snd].
  rewrite <- int_zero_iff. pose proof (pow2_pos 1074 ltac:(lia)). split.
  - intros E. exists k. lia.
  - intros [k' E]. assert (f_int f = (k' - k) * 2 ^ 1074) by lia. destruct (Z.eq_dec k' k) as [->|N]; [lia|]. exfalso. clear - S5 H0 N H. nia.
Qed.

Lemma IZR_int_iff x : (exists k, fval x = IZR k) <-> exists k, f_int x = k * 2 ^ 1074.
Proof.
  split; intros [k E]; exists k.
  - apply eq_IZR. rewrite mult_IZR, <- E, fval_int, Rmult_assoc, pow2_IZR, <- pw_add by lia. change (1074 + -1074) with 0. change (-1074 + 1074) with 0. rewrite pw_1. ring.
  - now apply int_of_IZR.
Qed.

(** C32 *)
Theorem C32_is_integer x : is_f64 x ->
  float_is_integer x = true <-> finite x /\ exists k, fval x = IZR k.
Proof.
  intros H. unfold float_is_integer. destruct (f_is_finite x) eqn:F.
  - apply finite_iff in F; auto. pose proof (is_integer_int x F) as I. destruct (float_split x) as [i f] eqn:E. cbn [snd] in I.
    rewrite I, IZR_int_iff. tauto.
  - split; [discriminate|]. intros [Hf _]. apply finite_iff in Hf; auto. congruence.
Qed.
Print Assumptions C32_is_integer.

Lemma lt_zero x : finite x -> f_lt x 0 = true <-> (fval x < 0)%R.
Proof.
  intros [H Hf]. pose proof (expo_range x) as HE. pose proof (frac_range x) as HF.
  rewrite (mk_fields x H) at 1. change 0 with (mk false 0 0) at 1. unfold f_lt. rewrite !nan_mk by (nums; lia). cbn [negb andb].
  rewrite !key_mk by (nums; lia). rewrite Z.ltb_lt.
  rewrite fval_int. pose proof (pw_pos (-1074)). assert (B : (IZR (f_int x) * powerRZ 2 (-1074) < 0)%R <-> f_int x < 0).
  { split; intros C; [apply lt_IZR; nra|apply IZR_lt in C; nra]. }
  rewrite B. unfold f_int, f_mant. pose proof (pow2_pos _ (unit_range x)).
  destruct (f_sign x); destruct (Z.eqb_spec (f_expo x) 0) as [E|E]; rewrite ?E; nums; split; intros; nia.
Qed.

(** C32 *)
Theorem C32_is_neg_integer x : is_f64 x ->
  float_is_neg_integer x = true <-> finite x /\ (fval x < 0)%R /\ exists k, fval x = IZR k.
Proof.
  intros H. unfold float_is_neg_integer. destruct (f_is_finite x) eqn:F.
  - apply finite_iff in F; auto. pose proof (is_integer_int x F) as I. pose proof (lt_zero x F) as L. destruct (f_lt x 0).
    + destruct (float_split x) as [i f] eqn:E. cbn [snd] in I. rewrite I, IZR_int_iff. tauto.
    + split; [discriminate|]. intros (_ & C & _). apply L in C. discriminate.
  - split; [discriminate|]. intros [Hf _]. apply finite_iff in Hf; auto. congruence.
Qed.

(* ------------------------------------------------------------------ *)
(** * modulo *)

(** order of nonnegative finite numbers *)
Lemma mag_mono E f E' f' : 0 <= E -> 0 <= f < 2 ^ 52 -> 0 <= E' -> 0 <= f' < 2 ^ 52 ->
  let g := fun E f => (if E =? 0 then f else 2 ^ 52 + f) * 2 ^ ((if E =? 0 then -1074 else E - 1075) + 1074) in
  E * 2 ^ 52 + f < E' * 2 ^ 52 + f' -> g E f < g E' f'.
Proof.
  intros HE Hf HE' Hf' g L. unfold g. clear g.
  destruct (Z.eqb_spec E 0) as [->|N], (Z.eqb_spec E' 0) as [->|N'].
  - change (2 ^ (-1074 + 1074)) with 1. lia.
  - change (2 ^ (-1074 + 1074)) with 1. pose proof (pow2_pos (E' - 1075 + 1074) ltac:(lia)). nums. nia.
  - exfalso. nums. lia.
  - assert (C : E < E' \/ (E = E' /\ f < f')) by (nums; lia). destruct C as [C|[-> C]].
    + replace (E' - 1075 + 1074) with (E - 1075 + 1074 + 1 + (E' - E - 1)) by lia. rewrite !(Z.pow_add_r 2 (_ + 1)) by lia.
      rewrite (Z.pow_add_r 2 _ 1) by lia. pose proof (pow2_pos (E - 1075 + 1074) ltac:(lia)). pose proof (pow2_pos (E' - E - 1) ltac:(lia)).
      set (a := 2 ^ (E - 1075 + 1074)) in *. set (b := 2 ^ (E' - E - 1)) in *. change (2 ^ 1) with 2. nums.
      assert (a * 2 * 1 <= a * 2 * b) by nia. nia.
    + pose proof (pow2_pos (E' - 1075 + 1074) ltac:(lia)). nia.
Qed.

Lemma ge_mag a b : finite a -> finite b -> f_sign b = false -> 0 <= f_int a -> 0 < f_int b -> f_ge a b = (f_int b <=? f_int a).
Proof.
  intros [Ha Fa] [Hb Fb] Sb Ia Ib. pose proof (expo_range a). pose proof (frac_range a). pose proof (expo_range b). pose proof (frac_range b).
  assert (Ka : f_key a = f_expo a * 2 ^ 52 + f_frac a).
  { rewrite (mk_fields a Ha) at 1. rewrite key_mk by lia. destruct (f_sign a) eqn:S; auto. rewrite f_int_mag, S in Ia. pose proof (mag_nonneg a).
    assert (f_mag a = 0) by lia. unfold f_mag in H4. pose proof (pow2_pos _ (unit_range a)). pose proof (mant_range a).
    assert (f_mant a = 0) by nia. apply zero_iff in H7. unfold f_is_zero in H7. apply andb_prop in H7. destruct H7 as [X Y]. apply Z.eqb_eq in X, Y. rewrite X, Y. reflexivity. }
  assert (Kb : f_key b = f_expo b * 2 ^ 52 + f_frac b) by (rewrite (mk_fields b Hb) at 1; rewrite key_mk by lia; rewrite Sb; reflexivity).
  assert (Ma : f_int a = f_mag a) by (rewrite f_int_mag in *; pose proof (mag_nonneg a); destruct (f_sign a); lia).
  assert (Mb : f_int b = f_mag b) by (rewrite f_int_mag, Sb; reflexivity).
  assert (Ea : f_mag a = (if f_expo a =? 0 then f_frac a else 2 ^ 52 + f_frac a) * 2 ^ ((if f_expo a =? 0 then -1074 else f_expo a - 1075) + 1074)) by reflexivity.
  assert (Eb : f_mag b = (if f_expo b =? 0 then f_frac b else 2 ^ 52 + f_frac b) * 2 ^ ((if f_expo b =? 0 then -1074 else f_expo b - 1075) + 1074)) by reflexivity.
  unfold f_ge. unfold f_is_nan. destruct (Z.eqb_spec (f_expo a) 2047); [contradiction|]. destruct (Z.eqb_spec (f_expo b) 2047); [contradiction|]. cbn [andb negb].
  rewrite Ka, Kb. destruct (Z.leb_spec (f_int b) (f_int a)) as [C|C].
  - apply Z.leb_le. destruct (Z.le_gt_cases (f_expo b * 2 ^ 52 + f_frac b) (f_expo a * 2 ^ 52 + f_frac a)) as [D|D]; auto. exfalso.
    pose proof (mag_mono _ (f_frac a) _ (f_frac b) (proj1 (expo_range a)) (frac_range a) (proj1 (expo_range b)) (frac_range b) D) as X. cbv beta zeta in X. rewrite <- Ea, <- Eb in X. lia.
  - apply Z.leb_gt. destruct (Z.le_gt_cases (f_expo b * 2 ^ 52 + f_frac b) (f_expo a * 2 ^ 52 + f_frac a)) as [D|D]; auto. exfalso.
    apply Z.lt_eq_cases in D. destruct D as [D|D].
    + pose proof (mag_mono _ (f_frac b) _ (f_frac a) (proj1 (expo_range b)) (frac_range b) (proj1 (expo_range a)) (frac_range a) D) as X. cbv beta zeta in X. rewrite <- Ea, <- Eb in X. lia.
    + assert (f_expo a = f_expo b /\ f_frac a = f_frac b) as [X Y] by (nums; lia). rewrite X, Y in Ea. lia.
Qed.

Lemma pos_facts r : finite r -> f_sign r = false -> 0 < f_int r ->
  nonzero r /\ exists f e, float_decompose r = (mk false 1022 f, e) /\ 0 <= f < 2 ^ 52 /\ -1073 <= e <= 1024 /\
    f_int r * 2 ^ 52 = (2 ^ 52 + f) * 2 ^ (e + 1073).
Proof.
  intros Hr Sr Ir. assert (Hn : nonzero r).
  { intros E. apply zero_iff, int_zero_iff in E. lia. }
  split; auto. destruct (decompose_int r Hr Hn) as (f & e & D & Hf & He & V). rewrite Sr in D. exists f, e. splits; auto; try lia.
  rewrite <- V. rewrite f_int_mag, Sr. unfold f_mag. pose proof (unit_range r). rewrite <- Z.mul_assoc, <- Z.pow_add_r by lia. do 2 f_equal. lia.
Qed.

(** one turn: the largest y 2^k not above r is removed *)
Lemma modulo_turn y fy ye r : finite y -> f_sign y = false -> 0 < f_int y -> float_decompose y = (mk false 1022 fy, ye) ->
  finite r -> f_sign r = false -> f_int y <= f_int r ->
  exists fr re, float_decompose r = (fr, re) /\
  let re' := if f_lt fr (mk false 1022 fy) then re - 1 else re in
  exists t k, float_compose y (re' - ye) = Ok t /\
    finite (f_sub r t) /\ f_sign (f_sub r t) = false /\ 0 <= f_int (f_sub r t) /\ 2 * f_int (f_sub r t) < f_int r /\
    f_int r = k * f_int y + f_int (f_sub r t).
Proof.
  intros Fy Sy Iy Dy Fr Sr Ir.
  destruct (pos_facts y Fy Sy Iy) as (Ny & fy' & ye' & Dy' & Bfy & Bye & Vy). rewrite Dy in Dy'.
  assert (fy' = fy /\ ye' = ye) as [-> ->].
  { injection Dy' as A B. split; auto. unfold mk in A. lia. }
  clear Dy'. destruct (pos_facts r Fr Sr ltac:(lia)) as (Nr & fr & re & Dr & Bfr & Bre & Vr).
  exists (mk false 1022 fr), re. split; [exact Dr|].
  assert (Lt : f_lt (mk false 1022 fr) (mk false 1022 fy) = (fr <? fy)).
  { unfold f_lt. rewrite !nan_mk by lia. cbn [negb andb]. rewrite !key_mk by lia.
    destruct (Z.ltb_spec fr fy); [apply Z.ltb_lt|apply Z.ltb_ge]; lia. }
  cbv zeta. rewrite Lt. set (re' := if fr <? fy then re - 1 else re).
  set (n := f_int r) in *. set (m := f_int y) in *.
  (* exponents *)
  assert (Lr : 0 <= re + 1073) by lia. assert (Ly : 0 <= ye + 1073) by lia.
  pose proof (pow2_pos _ Lr) as Pr. pose proof (pow2_pos _ Ly) as Py.
  assert (Hk : 0 <= re' - ye).
  { destruct (Z.le_gt_cases 0 (re' - ye)) as [|C]; auto. exfalso. unfold re' in C.
    destruct (Z.ltb_spec fr fy) as [D|D].
    - assert (re <= ye) by lia. assert (2 ^ (re + 1073) <= 2 ^ (ye + 1073)) by (apply Z.pow_le_mono_r; lia). nums. nia.
    - assert (re + 1073 + 1 <= ye + 1073) by lia. assert (2 ^ (re + 1073 + 1) <= 2 ^ (ye + 1073)) by (apply Z.pow_le_mono_r; lia).
      rewrite Z.pow_add_r in H0 by lia. change (2 ^ 1) with 2 in H0. nums. nia. }
  set (k := re' - ye) in *. pose proof (pow2_pos k Hk) as Pk.
  assert (B : m * 2 ^ k <= n /\ n < 2 * (m * 2 ^ k)).
  { assert (T : m * 2 ^ k * 2 ^ 52 = (2 ^ 52 + fy) * 2 ^ (re' + 1073)).
    { replace (m * 2 ^ k * 2 ^ 52) with (m * 2 ^ 52 * 2 ^ k) by ring. rewrite Vy, <- Z.mul_assoc, <- Z.pow_add_r by lia. do 2 f_equal. unfold k. lia. }
    unfold re' in *. destruct (Z.ltb_spec fr fy) as [D|D].
    - assert (E : 2 ^ (re + 1073) = 2 * 2 ^ (re - 1 + 1073)).
      { change 2 with (2 ^ 1) at 2. rewrite <- Z.pow_add_r by (unfold k in Hk; lia). f_equal. lia. }
      rewrite E in Vr. pose proof (pow2_pos (re - 1 + 1073) ltac:(unfold k in Hk; lia)). nums. split; nia.
    - nums. split; nia. }
  (* the multiple *)
  pose proof (mag_bound r (proj1 Fr) (proj2 Fr)) as Rb. assert (Mr : f_mag r = n) by (unfold n; rewrite f_int_mag, Sr; reflexivity). rewrite Mr in Rb.
  pose proof (unit_range y) as Uy. pose proof (mant_range y) as My. pose proof (unit_range r) as Ur. pose proof (mant_range r) as Mrr.
  assert (Em : m = f_mant y * 2 ^ (f_unit y + 1074)) by (unfold m; rewrite f_int_mag, Sy; reflexivity).
  assert (En : n = f_mant r * 2 ^ (f_unit r + 1074)) by (unfold n; rewrite f_int_mag, Sr; reflexivity).
  set (j := f_unit y + 1074 + k). assert (Et : m * 2 ^ k = f_mant y * 2 ^ j) by (rewrite Em; unfold j; rewrite <- Z.mul_assoc, <- Z.pow_add_r by lia; reflexivity).
  assert (Mp : 0 < f_mant y) by (unfold nonzero in Ny; lia).
  assert (Tp : 0 < m * 2 ^ k) by (clear - Iy Pk; nia).
  destruct (representable false (m * 2 ^ k) (f_mant y) j Tp Et ltac:(unfold j; lia) ltac:(lia) ltac:(lia)) as (t & T1 & T2 & T3 & T4 & T5).
  assert (Cy : float_compose y k = Ok t).
  { rewrite C32_compose_int; auto.
    - rewrite Sy. f_equal. rewrite <- T5. apply (round_unique _ _ _ _ _ 1074); try lia.
      change (2 ^ (-1074 + 1074)) with 1. rewrite Z.mul_1_r, Et. unfold j. do 2 f_equal. lia.
    - change (2 ^ 31) with 2147483648. unfold k, re' in *. destruct (fr <? fy); lia. }
  exists t, (2 ^ k). split; [exact Cy|].
  assert (It : f_int t = m * 2 ^ k) by (rewrite f_int_mag, T3, T4; reflexivity).
  assert (D0 : f_int r - f_int t = n - m * 2 ^ k) by (rewrite It; reflexivity).
  destruct (Z.eq_dec (n - m * 2 ^ k) 0) as [Z0|Z0].
  - assert (S : f_sub r t = f_zero false).
    { unfold f_sub. rewrite D0, Z0. cbn [Z.eqb]. rewrite Sr. reflexivity. }
    rewrite S. destruct (zero_facts false) as (F1 & F2 & F3). rewrite F3. splits; auto; try (apply F1); try lia.
  - set (i := Z.min j (f_unit r + 1074)). set (q := f_mant r * 2 ^ (f_unit r + 1074 - i) - f_mant y * 2 ^ (j - i)).
    assert (Eq : n - m * 2 ^ k = q * 2 ^ i).
    { unfold q. rewrite Z.mul_sub_distr_r, <- !Z.mul_assoc, <- !Z.pow_add_r by (unfold i, j; lia). rewrite Et, En. do 2 f_equal; f_equal; lia. }
    assert (Pi : 0 <= i) by (unfold i, j; lia). pose proof (pow2_pos i Pi) as Pi2.
    assert (Hq : q < 2 ^ 53).
    { unfold i in *. destruct (Z.min_spec j (f_unit r + 1074)) as [[C E]|[C E]]; rewrite E in *.
      - assert (L : q * 2 ^ j < f_mant y * 2 ^ j) by lia. apply (Z.mul_lt_mono_pos_r _ _ _ Pi2) in L. lia.
      - assert (L : q * 2 ^ (f_unit r + 1074) <= f_mant r * 2 ^ (f_unit r + 1074)) by (clear - Eq En Tp; lia). apply (Z.mul_le_mono_pos_r _ _ _ Pi2) in L. lia. }
    destruct (sub_exact r t q i) as (S1 & S2 & S3); try lia.
    rewrite S3, D0. splits; try (apply S1); try lia. rewrite S2, D0. apply Z.ltb_ge. lia.
Qed.

Lemma modulo_loop_ok y fy ye : finite y -> f_sign y = false -> 0 < f_int y -> float_decompose y = (mk false 1022 fy, ye) ->
  forall fuel r, finite r -> f_sign r = false -> f_int r < 2 ^ Z.of_nat fuel ->
  exists r' k, modulo_loop (S fuel) y (mk false 1022 fy) ye r = Some (Ok r') /\
    finite r' /\ f_sign r' = false /\ 0 <= f_int r' < f_int y /\ f_int r = k * f_int y + f_int r'.
Proof.
  intros Fy Sy Iy Dy. induction fuel as [|fuel IH]; intros r Fr Sr Hr.
  - assert (Ir : 0 <= f_int r) by (rewrite f_int_mag, Sr; apply mag_nonneg). change (2 ^ Z.of_nat 0) with 1 in Hr.
    cbn [modulo_loop]. rewrite ge_mag by auto. destruct (Z.leb_spec (f_int y) (f_int r)); [lia|]. exists r, 0. splits; auto; try (apply Fr); lia.
  - assert (Ir : 0 <= f_int r) by (rewrite f_int_mag, Sr; apply mag_nonneg).
    cbn [modulo_loop]. rewrite ge_mag by auto. destruct (Z.leb_spec (f_int y) (f_int r)) as [C|C].
    + destruct (modulo_turn y fy ye r Fy Sy Iy Dy Fr Sr C) as (fr & re & Dr & t & k & Ct & F1 & F2 & F3 & F4 & F5).
      rewrite Dr. cbv beta iota zeta in *. rewrite Ct.
      rewrite Nat2Z.inj_succ, Z.pow_succ_r in Hr by lia.
      destruct (IH (f_sub r t) F1 F2 ltac:(lia)) as (r' & k' & E & G1 & G2 & G3 & G4). cbn [modulo_loop] in E.
      exists r', (k + k'). splits; auto; try (apply G1); try lia. 
    + exists r, 0. splits; auto; try (apply Fr); lia.
Qed.

Lemma neg_mk s E f : 0 <= E < 2048 -> 0 <= f < 2 ^ 52 -> f_neg (mk s E f) = mk (negb s) E f.
Proof.
  intros. unfold f_neg. rewrite sign_mk by auto. unfold mk. destruct s; cbn [negb]; lia.
Qed.

Lemma neg_facts x : finite x -> finite (f_neg x) /\ f_sign (f_neg x) = negb (f_sign x) /\ f_int (f_neg x) = - f_int x.
Proof.
  intros [H Hf]. pose proof (expo_range x). pose proof (frac_range x).
  assert (E : f_neg x = mk (negb (f_sign x)) (f_expo x) (f_frac x)) by (rewrite (mk_fields x H) at 1; apply neg_mk; lia).
  assert (S : f_sign (f_neg x) = negb (f_sign x)) by (rewrite E; apply sign_mk; lia).
  splits; auto.
  - rewrite E. split; [apply mk_f64; lia|rewrite expo_mk; lia].
  - rewrite !f_int_mag, S. assert (M : f_mag (f_neg x) = f_mag x).
    { unfold f_mag. rewrite E, mant_mk, unit_mk by lia. reflexivity. }
    rewrite M. destruct (f_sign x); cbn [negb]; lia.
Qed.

Lemma abs_facts y : finite y -> nonzero y -> finite (f_abs y) /\ f_sign (f_abs y) = false /\ 0 < f_int (f_abs y) /\ f_int (f_abs y) = Z.abs (f_int y).
Proof.
  intros [H Hf] N. pose proof (expo_range y). pose proof (frac_range y).
  assert (E : f_abs y = mk false (f_expo y) (f_frac y)) by (rewrite (mk_fields y H) at 1; apply abs_mk; lia).
  assert (S : f_sign (f_abs y) = false) by (rewrite E; apply sign_mk; lia).
  assert (M : f_mag (f_abs y) = f_mag y) by (unfold f_mag; rewrite E, mant_mk, unit_mk by lia; reflexivity).
  assert (P : 0 < f_mag y) by (unfold f_mag; pose proof (mant_range y); pose proof (pow2_pos _ (unit_range y)); unfold nonzero in N; nia).
  splits; auto.
  - rewrite E. split; [apply mk_f64; lia|rewrite expo_mk; lia].
  - rewrite f_int_mag, S, M. exact P.
  - rewrite !f_int_mag, S, M. destruct (f_sign y); lia.
Qed.

(** C32: for every finite x and every nonzero y the loop ends, within 2099
    turns, with a remainder that has the sign of x, is below |y| and differs
    from x by an exact integer multiple of y; with an infinite y it is x *)
Theorem C32_modulo fuel x y : 2098 < Z.of_nat fuel -> finite x -> is_f64 y -> nonzero y -> f_is_nan y = false ->
  exists r, modulo fuel x y = Some (Ok r) /\ finite r /\ f_sign r = f_sign x /\
    (finite y -> (Rabs (fval r) < Rabs (fval y))%R /\ exists k, fval x = (IZR k * fval y + fval r)%R) /\
    (~ finite y -> r = x).
Proof.
  intros Hfuel Fx Hy Ny Nn. destruct fuel as [|fuel]; [lia|]. rewrite Nat2Z.inj_succ in Hfuel.
  assert (Zy : f_is_zero y = false) by (destruct (f_is_zero y) eqn:E; auto; apply zero_iff in E; contradiction).
  assert (Ix : f_is_inf x = false) by (unfold f_is_inf; destruct (Z.eqb_spec (f_expo x) 2047) as [E|]; [destruct Fx; contradiction|reflexivity]).
  assert (Nx : f_is_nan x = false) by (unfold f_is_nan; destruct (Z.eqb_spec (f_expo x) 2047) as [E|]; [destruct Fx; contradiction|reflexivity]).
  unfold modulo. rewrite Zy, Ix, Nx, Nn. cbn [orb].
  (* the start of the loop *)
  set (r0 := if f_lt x 0 then f_neg x else x).
  assert (Lx : f_lt x 0 = true <-> f_int x < 0).
  { rewrite lt_zero by auto. rewrite fval_int. pose proof (pw_pos (-1074)). split; intros C; [apply lt_IZR; nra|apply IZR_lt in C; nra]. }
  assert (R0 : finite r0 /\ f_int r0 = Z.abs (f_int x) /\ (f_int x <> 0 -> f_sign r0 = false)).
  { destruct (neg_facts x Fx) as (N1 & N2 & N3). pose proof (mag_nonneg x) as Mx. unfold r0. destruct (f_lt x 0) eqn:L.
    - assert (C : f_int x < 0) by now apply Lx. split; [exact N1|]. split; [lia|]. intros _. rewrite N2. rewrite f_int_mag in C. destruct (f_sign x); [reflexivity|lia].
    - assert (C : ~ f_int x < 0) by (intros C; apply Lx in C; discriminate). split; [exact Fx|]. split; [lia|]. intros NZ. rewrite f_int_mag in C, NZ. destruct (f_sign x); [lia|reflexivity]. }
  destruct R0 as (R1 & R2 & R3).
  assert (Fin : forall r', finite r' -> 0 <= f_int r' -> (f_int x <> 0 -> f_sign r' = false) -> (f_int x = 0 -> r' = x) ->
     finite (if f_lt x 0 then f_neg r' else r') /\ f_sign (if f_lt x 0 then f_neg r' else r') = f_sign x /\
     f_int (if f_lt x 0 then f_neg r' else r') = if f_lt x 0 then - f_int r' else f_int r').
  { intros r' F I S0 S1. destruct (neg_facts r' F) as (N1 & N2 & N3). pose proof (mag_nonneg x) as Mx. destruct (f_lt x 0) eqn:L.
    - assert (C : f_int x < 0) by now apply Lx. split; [exact N1|]. split; [|exact N3]. rewrite N2, S0 by lia. rewrite f_int_mag in C. destruct (f_sign x); [reflexivity|lia].
    - assert (C : ~ f_int x < 0) by (intros C; apply Lx in C; discriminate). split; [exact F|]. split; [|reflexivity].
      destruct (Z.eq_dec (f_int x) 0) as [E|E]; [now rewrite S1|]. rewrite S0 by auto. rewrite f_int_mag in C, E. destruct (f_sign x); [lia|reflexivity]. }
  destruct (Z.eq_dec (f_expo y) 2047) as [Ey|Ey].
  - (* infinite *)
    assert (Fy : f_frac y = 0).
    { unfold f_is_nan in Nn. rewrite Ey in Nn. cbn [Z.eqb] in Nn. change (2047 =? 2047) with true in Nn. cbn [andb] in Nn. apply negb_false_iff, Z.eqb_eq in Nn. exact Nn. }
    assert (Ea : f_abs y = mk false 2047 0).
    { rewrite (mk_fields y Hy), Ey, Fy. apply abs_mk; nums; lia. }
    rewrite Ea. assert (D : float_decompose (mk false 2047 0) = (mk false 2047 0, 0)) by reflexivity. rewrite D. cbv beta iota zeta.
    assert (G : f_ge r0 (mk false 2047 0) = false).
    { unfold f_ge. destruct (f_is_nan r0); [reflexivity|]. change (f_is_nan (mk false 2047 0)) with false. cbn [negb andb]. apply Z.leb_gt.
      rewrite key_mk by (nums; lia). destruct R1 as [H1 H2]. pose proof (expo_range r0). pose proof (frac_range r0). rewrite (mk_fields r0 H1), key_mk by lia.
      destruct (f_sign r0); nums; lia. }
    cbn [modulo_loop]. rewrite G. eexists. split; [reflexivity|].
    assert (Er : (if f_lt x 0 then f_neg r0 else r0) = x).
    { unfold r0. destruct (f_lt x 0); [|reflexivity]. unfold f_neg. destruct Fx as [Hx _]. unfold is_f64 in Hx. unfold f_sign.
      destruct (Z.leb_spec (2 ^ 63) x).
      - destruct (Z.leb_spec (2 ^ 63) (x - 2 ^ 63)); nums; lia.
      - destruct (Z.leb_spec (2 ^ 63) (x + 2 ^ 63)); nums; lia. }
    rewrite Er. split; [exact Fx|]. split; [reflexivity|]. split; [|reflexivity]. intros [_ C]. contradiction.
  - assert (Fy : finite y) by (split; auto). destruct (abs_facts y Fy Ny) as (A1 & A2 & A3 & A4).
    destruct (pos_facts (f_abs y) A1 A2 A3) as (A5 & fy & ye & A6 & A7 & A8 & A9). rewrite A6. cbv beta iota zeta.
    assert (L : exists r' k, modulo_loop (S fuel) (f_abs y) (mk false 1022 fy) ye r0 = Some (Ok r') /\
       finite r' /\ 0 <= f_int r' < f_int (f_abs y) /\ f_int r0 = k * f_int (f_abs y) + f_int r' /\ (f_int x <> 0 -> f_sign r' = false) /\ (f_int x = 0 -> r' = x)).
    { destruct (Z.eq_dec (f_int x) 0) as [Z0|Z0].
      - exists r0, 0. cbn [modulo_loop]. rewrite ge_mag by (auto; lia). destruct (Z.leb_spec (f_int (f_abs y)) (f_int r0)); [lia|].
        splits; auto; try (apply R1); try lia; try contradiction. intros _. unfold r0. destruct (f_lt x 0) eqn:C; [assert (f_int x < 0) by (now apply Lx); exfalso; lia|reflexivity].
      - destruct (modulo_loop_ok (f_abs y) fy ye A1 A2 A3 A6 fuel r0 R1 (R3 Z0)) as (r' & k & E & F1 & F2 & F3 & F4).
        + pose proof (mag_bound r0 (proj1 R1) (proj2 R1)) as Mb. rewrite f_int_mag, (R3 Z0).
          apply Z.lt_le_trans with (1 := Mb). apply Z.pow_le_mono_r; lia.
        + exists r', k. splits; auto; try (apply F1); try lia. }
    destruct L as (r' & k & E & F1 & F2 & F3 & F4 & F5). rewrite E. eexists. split; [reflexivity|].
    destruct (Fin r' F1 ltac:(lia) F4 F5) as (G1 & G2 & G3). set (r := if f_lt x 0 then f_neg r' else r') in *.
    split; [exact G1|]. split; [exact G2|]. split; [|intros C; contradiction]. intros _.
    assert (Kx : exists k', f_int x = k' * f_int y + f_int r).
    { rewrite R2, A4 in F3. rewrite G3. destruct (f_lt x 0) eqn:C.
      - assert (f_int x < 0) by now apply Lx. exists (- k * Z.sgn (f_int y)). rewrite <- Z.mul_assoc, (Z.mul_comm (Z.sgn _)), <- Z.abs_sgn. lia.
      - assert (~ f_int x < 0) by (intros D; apply Lx in D; discriminate). exists (k * Z.sgn (f_int y)). rewrite <- Z.mul_assoc, (Z.mul_comm (Z.sgn _)), <- Z.abs_sgn. lia. }
    pose proof (pw_pos (-1074)) as Pw. split.
    + rewrite !fval_int, !Rabs_mult, <- !abs_IZR. apply Rmult_lt_compat_r; [rewrite Rabs_pos_eq; lra|]. apply IZR_lt. rewrite G3, <- A4. destruct (f_lt x 0); lia.
    + destruct Kx as [k' Kx]. exists k'. rewrite !fval_int, Kx, plus_IZR, mult_IZR. ring.
Qed.
Print Assumptions C32_modulo.

(** a zero divisor, an infinite dividend and NaN give NaN *)
Theorem C32_modulo_special fuel x y : f_is_zero y = true \/ f_is_inf x = true \/ f_is_nan x = true \/ f_is_nan y = true ->
  exists r, modulo fuel x y = Some (Ok r) /\ f_is_nan r = true.
Proof.
  intros H. exists F_NAN. split; [|reflexivity]. unfold modulo.
  destruct H as [->|[->|[->| ->]]]; rewrite ?orb_true_r; reflexivity.
Qed.

(** the hypotheses hold for 5.0, 3.0 and the smallest subnormal number; the
    remainder of 5.5 by -3 is 2.5, that of -5.5 is -2.5 *)
Example C32_ex n :
  (finite 0x4014000000000000 /\ nonzero 0x4014000000000000) /\ (finite 1 /\ nonzero 1) /\
  float_decompose 0x4014000000000000 = (0x3fe4000000000000, 3) /\ float_decompose 1 = (0x3fe0000000000000, -1073) /\
  float_split 0x4016000000000000 = (0x4014000000000000, 0x3fe0000000000000) /\
  modulo (S (S (S n))) 0x4016000000000000 0xc008000000000000 = Some (Ok 0x4004000000000000) /\
  modulo (S (S (S n))) 0xc016000000000000 0xc008000000000000 = Some (Ok 0xc004000000000000).
Proof. repeat split; try reflexivity; try discriminate. Qed.
