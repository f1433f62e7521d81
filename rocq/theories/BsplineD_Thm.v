(** C108: derivatives of B-spline basis functions and curves *)
From Coq Require Import Reals Lra Lia ZArith List Psatz FunctionalExtensionality.
From Verif Require Import RSum Bspline_Model Bspline_Thm BsplineD_Model.
Import ListNotations.
Open Scope R_scope.

(* ------------------------------------------------------------------ *)
(** * Specification *)

(** g is the k-th derivative of f *)
Fixpoint nth_deriv (k : nat) (f g : R -> R) : Prop :=
  match k with
  | O => forall x, g x = f x
  | S k => exists h, nth_deriv k f h /\ forall x, derivable_pt_lim h x (g x)
  end.

(** the value d is the k-th derivative at u of the function F on the knot span that
    contains u: of a function that is smooth everywhere and equals F on that span *)
Definition deriv_in_span (uu : list R) (u : R) (F : R -> R) (k : nat) (d : R) : Prop :=
  let span := in_span (knot uu) (knot uu (length uu - 1)) in
  exists s f g, (S s < length uu)%nat /\ span u s /\ (forall v, span v s -> f v = F v) /\ nth_deriv k f g /\ d = g u.

(* ------------------------------------------------------------------ *)
(** * The derivative of the triangle *)

Section Core.
Variables (U : nat -> R) (s p : nat).
Notation t := (fun v => tri U v s).
(** the knot differences, without u *)
Definition dd (j r : nat) : R := U (s + (r + 1))%nat - U (s + 1 - (j - r))%nat.
Hypothesis Hd : forall j r, (r < j <= p)%nat -> 0 < dd j r.

Lemma diff_dd u j r : diff U u s j r = dd j r.
Proof. unfold diff, rgt, lft, dd. ring. Qed.

(** t j r / dd (j + 1) r, and 0 outside the triangle *)
Definition qq (u : R) (j r : nat) : R := if (r <=? j)%nat then tri U u s j r / dd (S j) r else 0.
Definition qm (u : R) (j r : nat) : R := match r with O => 0 | S r' => qq u j r' end.

Lemma tri_q u j r : (r <= S j)%nat -> tri U u s (S j) r = lft U u s (S j - (r - 1)) * qm u j r + rgt U u s (r + 1) * qq u j r.
Proof.
  intros H. rewrite tri_S. unfold qm, qq. rewrite !diff_dd. destruct r as [|r'].
  - destruct (Nat.ltb_spec 0 (S j)); [|lia]. destruct (Nat.leb_spec 0 j); [|lia]. ring.
  - rewrite diff_dd. replace (S r' - 1)%nat with r' by lia. destruct (Nat.leb_spec r' j); [|lia].
    destruct (Nat.ltb_spec (S r') (S j)); destruct (Nat.leb_spec (S r') j); try lia; ring.
Qed.

Lemma tri_deriv : forall j, (S j <= p)%nat -> forall r, (r <= S j)%nat -> forall u,
  derivable_pt_lim (fun v => tri U v s (S j) r) u (INR (S j) * (qm u j r - qq u j r)).
Proof.
  induction j as [|j IH]; intros Hj r Hr u.
  - (* degree one *)
    assert (E : forall v, tri U v s 1 r = lft U v s (1 - (r - 1)) * qm 0 0 r + rgt U v s (r + 1) * qq 0 0 r).
    { intros v. rewrite tri_q by lia. unfold qm, qq. destruct r as [|[|r]]; try lia; reflexivity. }
    apply (derivable_pt_lim_ext (fun v => lft U v s (1 - (r - 1)) * qm 0 0 r + rgt U v s (r + 1) * qq 0 0 r)); [intros; now rewrite E|].
    replace (INR 1 * (qm u 0 r - qq u 0 r)) with ((1 - 0) * qm 0 0 r + lft U u s (1 - (r - 1)) * 0 + ((0 - 1) * qq 0 0 r + rgt U u s (r + 1) * 0)).
    + apply derivable_pt_lim_plus.
      * apply (derivable_pt_lim_mult (fun v => lft U v s (1 - (r - 1))) (fun _ => qm 0 0 r)); [|apply derivable_pt_lim_const].
        apply derivable_pt_lim_minus; [apply derivable_pt_lim_id|apply derivable_pt_lim_const].
      * apply (derivable_pt_lim_mult (fun v => rgt U v s (r + 1)) (fun _ => qq 0 0 r)); [|apply derivable_pt_lim_const].
        apply derivable_pt_lim_minus; [apply derivable_pt_lim_const|apply derivable_pt_lim_id].
    + replace (qm u 0 r) with (qm 0 0 r) by (unfold qm, qq; destruct r as [|[|r]]; reflexivity).
      replace (qq u 0 r) with (qq 0 0 r) by (unfold qq; destruct r as [|r]; reflexivity). cbn [INR]. ring.
  - apply (derivable_pt_lim_ext (fun v => lft U v s (S (S j) - (r - 1)) * qm v (S j) r + rgt U v s (r + 1) * qq v (S j) r)); [intros; now rewrite tri_q|].
    assert (Q : forall i, derivable_pt_lim (fun v => qq v (S j) i) u (if (i <=? S j)%nat then INR (S j) * (qm u j i - qq u j i) / dd (S (S j)) i else 0)).
    { intros i. unfold qq at 1. destruct (Nat.leb_spec i (S j)) as [C|C]; [|apply derivable_pt_lim_const].
      apply (derivable_pt_lim_ext (fun v => / dd (S (S j)) i * tri U v s (S j) i)); [intros; unfold Rdiv; ring|].
      replace (INR (S j) * (qm u j i - qq u j i) / dd (S (S j)) i) with (/ dd (S (S j)) i * (INR (S j) * (qm u j i - qq u j i))) by (unfold Rdiv; ring).
      apply (derivable_pt_lim_scal (fun v => tri U v s (S j) i)). apply IH; lia. }
    assert (Qm : derivable_pt_lim (fun v => qm v (S j) r) u (match r with O => 0 | S i => INR (S j) * (qm u j i - qq u j i) / dd (S (S j)) i end)).
    { unfold qm at 1. destruct r as [|i]; [apply derivable_pt_lim_const|]. specialize (Q i). destruct (Nat.leb_spec i (S j)); [exact Q|lia]. }
    specialize (Q r).
    match type of Qm with derivable_pt_lim _ _ ?x => set (dm := x) in * end.
    match type of Q with derivable_pt_lim _ _ ?x => set (dq := x) in * end.
    replace (INR (S (S j)) * (qm u (S j) r - qq u (S j) r)) with
      ((1 - 0) * qm u (S j) r + lft U u s (S (S j) - (r - 1)) * dm + ((0 - 1) * qq u (S j) r + rgt U u s (r + 1) * dq)).
    + apply derivable_pt_lim_plus.
      * apply (derivable_pt_lim_mult (fun v => lft U v s (S (S j) - (r - 1))) (fun v => qm v (S j) r)); [|exact Qm].
        apply derivable_pt_lim_minus; [apply derivable_pt_lim_id|apply derivable_pt_lim_const].
      * apply (derivable_pt_lim_mult (fun v => rgt U v s (r + 1)) (fun v => qq v (S j) r)); [|exact Q].
        apply derivable_pt_lim_minus; [apply derivable_pt_lim_const|apply derivable_pt_lim_id].
    + (* the algebra of the classical proof *)
      assert (A : lft U u s (S (S j) - (r - 1)) * dm = INR (S j) * (qm u (S j) r - qm u j r)).
      { unfold dm, qm at 2. destruct r as [|i]; [unfold qm; ring|]. replace (S i - 1)%nat with i by lia.
        unfold qq at 2. destruct (Nat.leb_spec i (S j)); [|lia]. rewrite tri_q by lia.
        pose proof (Hd (S (S j)) i ltac:(lia)) as D. change (qm u j (S i)) with (qq u j i).
        destruct i as [|i']; [|replace (S j - (S i' - 1))%nat with (S (S j) - S i')%nat by lia].
        - cbn [qm]. assert (DD : dd (S (S j)) 0 = lft U u s (S (S j) - 0) + rgt U u s (0 + 1)) by (unfold dd, lft, rgt; ring).
          rewrite DD in *. field. lra.
        - assert (DD : dd (S (S j)) (S i') = lft U u s (S (S j) - S i') + rgt U u s (S i' + 1)) by (unfold dd, lft, rgt; ring).
          rewrite DD in *. field. lra. }
      assert (B : rgt U u s (r + 1) * dq = INR (S j) * (qm u j r - qq u (S j) r)).
      { unfold dq, qq at 2. destruct (Nat.leb_spec r (S j)) as [C|C].
        - rewrite tri_q by lia. pose proof (Hd (S (S j)) r ltac:(lia)) as D. destruct r as [|i].
          + cbn [qm]. assert (DD : dd (S (S j)) 0 = lft U u s (S (S j) - 0) + rgt U u s (0 + 1)) by (unfold dd, lft, rgt; ring).
            field. lra.
          + replace (S j - (S i - 1))%nat with (S (S j) - S i)%nat by lia.
            assert (DD : dd (S (S j)) (S i) = lft U u s (S (S j) - S i) + rgt U u s (S i + 1)) by (unfold dd, lft, rgt; ring).
            rewrite DD in *. field. lra.
        - replace r with (S (S j)) by lia. unfold qm, qq. destruct (Nat.leb_spec (S j) j); [lia|]. ring. }
      rewrite A, B. rewrite (S_INR (S j)). ring.
Qed.

(** the coefficients of the derivatives of a combination of the functions, up to the
    factor p (p - 1) ... (p - k + 1) *)
Variable P : nat -> R.
Fixpoint cp (k i : nat) : R :=
  match k with O => P i | S k' => (cp k' (S i) - cp k' i) / dd (p - k') i end.
Fixpoint fall (k : nat) : R := match k with O => 1 | S k' => fall k' * INR (p - k') end.
Definition dcurve (k : nat) (v : R) : R := fall k * sumn (S (p - k)) (fun i => cp k i * tri U v s (p - k) i).

Lemma sumn_deriv n (f g : nat -> R -> R) u : (forall i, (i < n)%nat -> derivable_pt_lim (f i) u (g i u)) ->
  derivable_pt_lim (fun v => sumn n (fun i => f i v)) u (sumn n (fun i => g i u)).
Proof.
  induction n as [|n IH]; intros H; cbn [sumn]; [apply derivable_pt_lim_const|].
  apply (derivable_pt_lim_plus (fun v => sumn n (fun i => f i v)) (f n)); [apply IH; auto|apply H; lia].
Qed.

(** summation by parts *)
Lemma by_parts n (c q : nat -> R) : sumn (S n) (fun i => c i * ((match i with O => 0 | S i' => q i' end) - (if (i <? n)%nat then q i else 0))) =
  sumn n (fun i => (c (S i) - c i) * q i).
Proof.
  rewrite (sumn_ext (S n) _ (fun i => c i * (match i with O => 0 | S i' => q i' end) - c i * (if (i <? n)%nat then q i else 0))) by (intros; ring).
  rewrite sumn_minus. rewrite sumn_S_l. cbn [sumn]. rewrite Nat.ltb_irrefl.
  rewrite (sumn_ext n (fun i => c i * (if (i <? n)%nat then q i else 0)) (fun i => c i * q i)).
  2: { intros i Hi. destruct (Nat.ltb_spec i n); [reflexivity|lia]. }
  rewrite (sumn_ext n (fun i => (c (S i) - c i) * q i) (fun i => c (S i) * q i - c i * q i)) by (intros; ring). rewrite sumn_minus. ring.
Qed.

Lemma dcurve_deriv k u : (S k <= p)%nat -> derivable_pt_lim (dcurve k) u (dcurve (S k) u).
Proof.
  intros Hk. unfold dcurve. cbn [fall]. replace (p - k)%nat with (S (p - S k)) by lia. set (m := (p - S k)%nat).
  rewrite Rmult_assoc. apply (derivable_pt_lim_scal (fun v => sumn (S (S m)) (fun i => cp k i * tri U v s (S m) i))).
  rewrite <- sumn_scal.
  rewrite (sumn_ext (S m) _ (fun i => INR (S m) * ((cp k (S i) - cp k i) * qq u m i))).
  2: { intros i Hi. cbn [cp]. replace (p - k)%nat with (S m) by (unfold m; lia). unfold qq. destruct (Nat.leb_spec i m); [|lia]. unfold Rdiv. ring. }
  rewrite sumn_scal. rewrite <- by_parts. rewrite <- sumn_scal.
  rewrite (sumn_ext (S (S m)) _ (fun i => cp k i * (INR (S m) * (qm u m i - qq u m i)))).
  2: { intros i Hi. replace (if (i <? S m)%nat then qq u m i else 0) with (qq u m i).
       - unfold qm. ring.
       - unfold qq. destruct (Nat.leb_spec i m), (Nat.ltb_spec i (S m)); try lia; reflexivity. }
  apply (sumn_deriv (S (S m)) (fun i v => cp k i * tri U v s (S m) i) (fun i v => cp k i * (INR (S m) * (qm v m i - qq v m i)))).
  intros i Hi. apply (derivable_pt_lim_scal (fun v => tri U v s (S m) i)). apply tri_deriv; unfold m in *; lia.
Qed.

Lemma dcurve_nth k : (k <= p)%nat -> nth_deriv k (fun v => sumn (S p) (fun i => P i * tri U v s p i)) (dcurve k).
Proof.
  induction k as [|k IH]; intros Hk.
  - intros x. unfold dcurve. cbn [fall cp]. rewrite Nat.sub_0_r. ring.
  - exists (dcurve k). split; [apply IH; lia|]. intros x. apply dcurve_deriv. lia.
Qed.
End Core.

(* ------------------------------------------------------------------ *)
(** * The array algorithm *)

Definition delta (r i : nat) : R := if (i =? r)%nat then 1 else 0.
Lemma delta_eq r i : i = r -> delta r i = 1.
Proof. intros ->. unfold delta. now rewrite Nat.eqb_refl. Qed.
Lemma delta_ne r i : i <> r -> delta r i = 0.
Proof. intros H. unfold delta. destruct (Nat.eqb_spec i r); [lia|reflexivity]. Qed.

Section Ders.
Variables (U : nat -> R) (u : R) (s p : nat) (ndu : list (list R)).
Hypothesis Hm : mat (p + 1) (p + 1) ndu.
Hypothesis Ht : forall j r, (r <= j <= p)%nat -> g2 ndu r j = tri U u s j r.
Hypothesis Hdd : forall j r, (r < j <= p)%nat -> g2 ndu j r = diff U u s j r.

Notation c := (fun r => cp U s p (delta r)).

Lemma c_zero r k : forall i, (r < i \/ i + k < r)%nat -> c r k i = 0.
Proof.
  induction k as [|k IH]; intros i Hi; cbn [cp].
  - unfold delta. destruct (Nat.eqb_spec i r); [lia|reflexivity].
  - cbn beta in IH. rewrite !IH by lia. unfold Rdiv. ring.
Qed.

(** the raw derivative, before the factor *)
Definition raw (r k : nat) : R := sumn (S (p - k)) (fun i => c r k i * tri U u s (p - k) i).

Definition row_ok (r k s1 : nat) (a : list (list R)) : Prop :=
  forall j, (j <= k)%nat -> (k <= r + j <= p)%nat -> g2 a s1 j = c r k (r + j - k)%nat.

Lemma ders_step_ok r k ders a s1 s2 : (r <= p)%nat -> (1 <= k <= p)%nat -> (s1 < 2)%nat -> (s2 < 2)%nat -> s1 <> s2 ->
  mat (p + 1) (p + 1) ders -> mat 2 (p + 1) a -> row_ok r (k - 1) s1 a ->
  exists ders' a', ders_step p ndu r k (ders, a, s1, s2) = Ok (ders', a', s2, s1) /\
    mat (p + 1) (p + 1) ders' /\ mat 2 (p + 1) a' /\ row_ok r k s2 a' /\
    g2 ders' k r = raw r k /\ (forall x y, (x <> k \/ y <> r) -> g2 ders' x y = g2 ders x y).
Proof.
  intros Hr Hk H1 H2 H12 Md Ma Ra. unfold ders_step. unfold usub at 1. destruct (Nat.leb_spec k p) as [_|]; [|lia]. cbn [bind].
  set (pk := (p - k)%nat). set (f := fun i => c r k i * tri U u s pk i).
  assert (C : forall i, c r k i = (c r (k - 1)%nat (S i) - c r (k - 1)%nat i) / diff U u s (pk + 1) i).
  { intros i. cbn beta. destruct k as [|k']; [lia|]. cbn [cp]. rewrite diff_dd. replace (S k' - 1)%nat with k' by lia. f_equal. unfold pk. f_equal. lia. }
  (* the first step *)
  assert (F : exists a1, first_step ndu r k pk s1 s2 a = Ok (a1, sumn (r + 1 - k) f) /\ mat 2 (p + 1) a1 /\
    (forall j, g2 a1 s1 j = g2 a s1 j) /\ ((k <= r)%nat -> g2 a1 s2 0 = c r k (r - k)%nat)).
  { unfold first_step. destruct (Nat.leb_spec k r) as [D|D].
    - unfold usub. destruct (Nat.leb_spec k r); [|lia]. cbn [bind].
      rewrite (get2_ok 2 (p + 1) a) by (auto; lia). cbn [bind]. rewrite (get2_ok (p + 1) (p + 1) ndu) by (auto; unfold pk; lia). cbn [bind].
      destruct (set2_ok 2 (p + 1) a s2 0 (g2 a s1 0 / g2 ndu (pk + 1) (r - k)) Ma ltac:(lia) ltac:(lia)) as (a1 & E1 & M1 & V1 & W1). rewrite E1. cbn [bind].
      rewrite (get2_ok 2 (p + 1) a1) by (auto; lia). cbn [bind]. rewrite (get2_ok (p + 1) (p + 1) ndu) by (auto; unfold pk; lia). cbn [bind].
      assert (V : g2 a1 s2 0 = c r k (r - k)%nat).
      { rewrite V1. rewrite (Ra 0%nat) by lia. rewrite Hdd by (unfold pk; lia). rewrite C. rewrite (c_zero r (k - 1) (r - k)) by lia.
        replace (r + 0 - (k - 1))%nat with (S (r - k)) by lia. f_equal. ring. }
      exists a1. split; [|splits; auto].
      rewrite V, Ht by (unfold pk; lia). do 2 f_equal. replace (r + 1 - k)%nat with (S (r - k)) by lia. cbn [sumn].
      rewrite sumn_zero; [unfold f; ring|]. intros i Hi. unfold f. rewrite (c_zero r k i) by lia. ring.
    - exists a. splits; auto; [|intros; lia]. replace (r + 1 - k)%nat with 0%nat by lia. reflexivity. }
  destruct F as (a1 & E1 & M1 & K1 & V1). rewrite E1. cbn [bind]. unfold usub at 1. destruct (Nat.leb_spec 1 k); [|lia]. cbn [bind].
  set (j1 := if (k - 1 <=? r)%nat then 1%nat else (k - r)%nat). set (j2 := if (r <=? pk + 1)%nat then (k - 1)%nat else (p - r)%nat).
  assert (Ej1 : (if (k - 1 <=? r)%nat then Ok 1%nat else usub k r) = Ok j1).
  { unfold j1, usub. destruct (Nat.leb_spec (k - 1) r); auto. destruct (Nat.leb_spec r k); [reflexivity|lia]. }
  assert (Ej2 : (if (r <=? pk + 1)%nat then Ok (k - 1)%nat else usub p r) = Ok j2).
  { unfold j2, usub. destruct (Nat.leb_spec r (pk + 1)); auto. destruct (Nat.leb_spec r p); [reflexivity|lia]. }
  rewrite Ej1. cbn [bind]. rewrite Ej2. cbn [bind].
  assert (Hj : (1 <= j1 <= j2 + 1)%nat /\ (k <= r + j1)%nat /\ (j2 <= k - 1)%nat /\ (r + j2 <= p)%nat /\ (r + j1 - k = r + 1 - k)%nat /\
    (forall j, (1 <= j <= k - 1)%nat -> (k <= r + j <= p)%nat -> (j1 <= j <= j2)%nat)).
  { unfold j1, j2, pk. destruct (Nat.leb_spec (k - 1) r), (Nat.leb_spec r (p - k + 1)); splits; lia. }
  destruct Hj as (J1 & J2 & J3 & J4 & J5 & J6).
  (* the second step *)
  destruct (for_range_inv (fun j st => let '(a', d) := st in mat 2 (p + 1) a' /\ (forall i, g2 a' s1 i = g2 a s1 i) /\
      ((k <= r)%nat -> g2 a' s2 0 = c r k (r - k)%nat) /\ (forall i, (j1 <= i < j)%nat -> g2 a' s2 i = c r k (r + i - k)%nat) /\ d = sumn (r + j - k) f)
    (second_step ndu r k pk s1 s2) j1 (j2 + 1) (a1, sumn (r + 1 - k) f)) as ([a2 d2] & E2 & M2 & K2 & V2 & W2 & D2).
  - lia.
  - splits; auto; [intros; lia|]. now rewrite J5.
  - intros j [a' d] Hj (I1 & I2 & I3 & I4 & I5). unfold second_step. unfold usub at 1. destruct (Nat.leb_spec k (r + j)); [|lia]. cbn [bind].
    rewrite (get2_ok 2 (p + 1) a') by (auto; lia). cbn [bind]. unfold usub. destruct (Nat.leb_spec 1 j); [|lia]. cbn [bind].
    rewrite (get2_ok 2 (p + 1) a') by (auto; lia). cbn [bind]. rewrite (get2_ok (p + 1) (p + 1) ndu) by (auto; unfold pk; lia). cbn [bind].
    destruct (set2_ok 2 (p + 1) a' s2 j ((g2 a' s1 j - g2 a' s1 (j - 1)) / g2 ndu (pk + 1) (r + j - k)) I1 ltac:(lia) ltac:(lia)) as (a3 & E3 & M3 & V3 & W3). rewrite E3. cbn [bind].
    rewrite (get2_ok 2 (p + 1) a3) by (auto; lia). cbn [bind]. rewrite (get2_ok (p + 1) (p + 1) ndu) by (auto; unfold pk; lia). cbn [bind].
    assert (V : g2 a3 s2 j = c r k (r + j - k)%nat).
    { rewrite V3, !I2. rewrite (Ra j), (Ra (j - 1)%nat) by lia. rewrite Hdd by (unfold pk; lia). rewrite C.
      replace (r + j - (k - 1))%nat with (S (r + j - k)) by lia. replace (r + (j - 1) - (k - 1))%nat with (r + j - k)%nat by lia. reflexivity. }
    eexists. split; [reflexivity|]. cbv beta iota. splits; auto.
    + intros i. rewrite W3 by auto. apply I2.
    + intros Hkr. rewrite W3 by lia. auto.
    + intros i Hi. destruct (Nat.eq_dec i j) as [->|N]; [exact V|]. rewrite W3 by auto. apply I4. lia.
    + rewrite I5, V, Ht by (unfold pk; lia). replace (r + S j - k)%nat with (S (r + j - k)) by lia. reflexivity.
  - rewrite E2. cbn [bind].
    (* the third step *)
    assert (T : exists a3, third_step ndu r k pk s1 s2 (a2, d2) = Ok (a3, raw r k) /\ mat 2 (p + 1) a3 /\ row_ok r k s2 a3).
    { unfold third_step. destruct (Nat.leb_spec r pk) as [D|D].
      - unfold usub. destruct (Nat.leb_spec 1 k); [|lia]. cbn [bind].
        rewrite (get2_ok 2 (p + 1) a2) by (auto; lia). cbn [bind]. rewrite (get2_ok (p + 1) (p + 1) ndu) by (auto; unfold pk in *; lia). cbn [bind].
        destruct (set2_ok 2 (p + 1) a2 s2 k (- g2 a2 s1 (k - 1) / g2 ndu (pk + 1) r) M2 ltac:(lia) ltac:(lia)) as (a3 & E3 & M3 & V3 & W3). rewrite E3. cbn [bind].
        rewrite (get2_ok 2 (p + 1) a3) by (auto; lia). cbn [bind]. rewrite (get2_ok (p + 1) (p + 1) ndu) by (auto; unfold pk in *; lia). cbn [bind].
        assert (V : g2 a3 s2 k = c r k r).
        { rewrite V3, K2. rewrite (Ra (k - 1)%nat) by (unfold pk in *; lia). rewrite Hdd by (unfold pk in *; lia). rewrite C. rewrite (c_zero r (k - 1) (S r)) by lia.
          replace (r + (k - 1) - (k - 1))%nat with r by lia. f_equal. ring. }
        exists a3. splits; auto.
        + do 2 f_equal. rewrite D2, V, Ht by (unfold pk in *; lia). unfold raw. fold pk. fold f.
          assert (j2 = k - 1)%nat by (unfold j2; destruct (Nat.leb_spec r (pk + 1)); lia).
          replace (r + (j2 + 1) - k)%nat with r by lia. replace (S pk) with (S r + (pk - r))%nat by lia. rewrite sumn_app. cbn [sumn].
          rewrite (sumn_zero (pk - r)); [unfold f; ring|]. intros i Hi. unfold f. rewrite (c_zero r k) by lia. ring.
        + intros j Hjk Hj. destruct (Nat.eq_dec j k) as [->|N]; [rewrite V; f_equal; lia|]. rewrite W3 by auto.
          destruct (Nat.eq_dec j 0) as [->|N0]; [rewrite V2 by lia; f_equal; lia|]. apply W2. specialize (J6 j ltac:(lia) ltac:(lia)). lia.
      - exists a2. splits; auto.
        + do 2 f_equal. rewrite D2. unfold raw. fold pk. fold f. f_equal. unfold j2, pk in *. destruct (Nat.leb_spec r (p - k + 1)); lia.
        + intros j Hjk Hj. destruct (Nat.eq_dec j k) as [->|N]; [unfold pk in *; lia|].
          destruct (Nat.eq_dec j 0) as [->|N0]; [rewrite V2 by lia; f_equal; lia|]. apply W2. specialize (J6 j ltac:(lia) ltac:(lia)). lia. }
    destruct T as (a3 & E3 & M3 & R3). rewrite E3. cbn [bind].
    destruct (set2_ok (p + 1) (p + 1) ders k r (raw r k) Md ltac:(lia) ltac:(lia)) as (d3 & E4 & M4 & V4 & W4). rewrite E4. cbn [bind].
    exists d3, a3. splits; auto.
Qed.

Lemma ders_row_ok r upto ders a : (r <= p)%nat -> (upto <= p)%nat -> mat (p + 1) (p + 1) ders -> mat 2 (p + 1) a ->
  exists ders' a', ders_row p upto ndu r (ders, a) = Ok (ders', a') /\ mat (p + 1) (p + 1) ders' /\ mat 2 (p + 1) a' /\
    (forall k, (1 <= k <= upto)%nat -> g2 ders' k r = raw r k) /\
    (forall x y, (x = 0 \/ upto < x \/ y <> r)%nat -> g2 ders' x y = g2 ders x y).
Proof.
  intros Hr Hup Md Ma. unfold ders_row. destruct (set2_ok 2 (p + 1) a 0 0 1 Ma ltac:(lia) ltac:(lia)) as (a1 & E1 & M1 & V1 & _). rewrite E1. cbn [bind].
  destruct (for_range_inv (fun k st => let '(d', a', s1, s2) := st in (s1 < 2)%nat /\ (s2 < 2)%nat /\ s1 <> s2 /\
      mat (p + 1) (p + 1) d' /\ mat 2 (p + 1) a' /\ row_ok r (k - 1) s1 a' /\
      (forall i, (1 <= i < k)%nat -> g2 d' i r = raw r i) /\ (forall x y, (x = 0 \/ k <= x \/ y <> r)%nat -> g2 d' x y = g2 ders x y))
    (ders_step p ndu r) 1 (upto + 1) (ders, a1, 0%nat, 1%nat)) as ([[[d2 a2] s1] s2] & E2 & I).
  - lia.
  - splits; auto; try lia.
    intros j Hj _. replace j with 0%nat by lia. rewrite V1. replace (r + 0 - (1 - 1))%nat with r by lia. change (1 - 1)%nat with 0%nat. cbn [cp]. unfold delta. now rewrite Nat.eqb_refl.
  - intros k [[[d' a'] s1] s2] Hk (I1 & I2 & I3 & I4 & I5 & I6 & I7 & I8).
    destruct (ders_step_ok r k d' a' s1 s2) as (d3 & a3 & E3 & M3 & M4 & R3 & V3 & W3); auto; try lia.
    eexists. split; [exact E3|]. cbv beta iota. splits; auto.
    + replace (S k - 1)%nat with k by lia. auto.
    + intros i Hi. destruct (Nat.eq_dec i k) as [->|N]; [auto|]. rewrite W3 by auto. apply I7. lia.
    + intros x y Hxy. rewrite W3 by lia. apply I8. lia.
  - destruct I as (I1 & I2 & I3 & I4 & I5 & I6 & I7 & I8). rewrite E2. cbn [bind]. exists d2, a2. splits; auto.
    + intros k Hk. apply I7. lia.
    + intros x y Hxy. apply I8. lia.
Qed.
End Ders.

Lemma load_basis_ok p ndu ders : mat (p + 1) (p + 1) ndu -> mat (p + 1) (p + 1) ders ->
  exists ders', load_basis p ndu ders = Ok ders' /\ mat (p + 1) (p + 1) ders' /\
    (forall j, (j <= p)%nat -> g2 ders' 0 j = g2 ndu j p) /\ (forall x y, (x <> 0)%nat -> g2 ders' x y = g2 ders x y).
Proof.
  intros Hm Md. unfold load_basis.
  destruct (for_range_inv (fun j d => mat (p + 1) (p + 1) d /\ (forall i, (i < j)%nat -> g2 d 0 i = g2 ndu i p) /\ (forall x y, (x <> 0)%nat -> g2 d x y = g2 ders x y))
    (fun j ders => x <- get2 ndu j p ;; set2 ders 0 j x) 0 (p + 1) ders) as (d & E & M & V & W).
  - lia.
  - splits; auto. intros; lia.
  - intros j d Hj (M & V & W). rewrite (get2_ok (p + 1) (p + 1)) by (auto; lia). cbn [bind].
    destruct (set2_ok (p + 1) (p + 1) d 0 j (g2 ndu j p) M ltac:(lia) ltac:(lia)) as (d' & E & M' & V' & W'). exists d'. splits; auto.
    + intros i Hi. destruct (Nat.eq_dec i j) as [->|N]; auto. rewrite W' by auto. apply V. lia.
    + intros x y Hx. rewrite W' by auto. auto.
  - exists d. splits; auto. intros j Hj. apply V. lia.
Qed.

Lemma scale_row_ok p k d ders : (k <= p)%nat -> mat (p + 1) (p + 1) ders ->
  exists ders', scale_row p k d ders = Ok ders' /\ mat (p + 1) (p + 1) ders' /\
    (forall j, (j <= p)%nat -> g2 ders' k j = g2 ders k j * d) /\ (forall x y, x <> k -> g2 ders' x y = g2 ders x y).
Proof.
  intros Hk Md. unfold scale_row.
  destruct (for_range_inv (fun j t => mat (p + 1) (p + 1) t /\ (forall i, (i < j)%nat -> g2 t k i = g2 ders k i * d) /\
      (forall x y, (x <> k \/ j <= y)%nat -> g2 t x y = g2 ders x y))
    (fun j ders => x <- get2 ders k j ;; set2 ders k j (x * d)) 0 (p + 1) ders) as (t & E & M & V & W).
  - lia.
  - splits; auto. intros; lia.
  - intros j t Hj (M & V & W). rewrite (get2_ok (p + 1) (p + 1)) by (auto; lia). cbn [bind].
    destruct (set2_ok (p + 1) (p + 1) t k j (g2 t k j * d) M ltac:(lia) ltac:(lia)) as (t' & E & M' & V' & W'). exists t'. splits; auto.
    + intros i Hi. destruct (Nat.eq_dec i j) as [->|N]; [rewrite V', W by lia; reflexivity|]. rewrite W' by auto. apply V. lia.
    + intros x y Hx. rewrite W' by lia. apply W. lia.
  - exists t. splits; auto. intros j Hj. apply V. lia.
Qed.

Lemma scale_ders_ok p upto ders : (upto <= p)%nat -> mat (p + 1) (p + 1) ders ->
  exists ders', scale_ders p upto ders = Ok ders' /\ mat (p + 1) (p + 1) ders' /\
    (forall k j, (k <= upto)%nat -> (j <= p)%nat -> g2 ders' k j = g2 ders k j * fall p k).
Proof.
  intros Hup Md. unfold scale_ders.
  match goal with |- context [for_range 1 (upto + 1) ?F ?S0] =>
  destruct (for_range_inv (fun k st => let '(t, d) := st in mat (p + 1) (p + 1) t /\ d = fall p k /\
    (forall i j, (i < k)%nat -> (j <= p)%nat -> g2 t i j = g2 ders i j * fall p i) /\ (forall i j, (k <= i)%nat -> g2 t i j = g2 ders i j)) F 1 (upto + 1) S0) as ([t d] & E & M & V & W & X) end.
  - lia.
  - splits; auto; [cbn; rewrite Nat.sub_0_r; ring|]. intros i j Hi _. replace i with 0%nat by lia. cbn. ring.
  - intros k [t d] Hk (M & V & W & X). destruct (scale_row_ok p k d t ltac:(lia) M) as (t' & E & M' & V' & W'). rewrite E. cbn [bind].
    unfold usub. destruct (Nat.leb_spec k p); [|lia]. cbn [bind]. eexists. split; [reflexivity|]. cbv beta iota. splits; auto.
    + rewrite V. reflexivity.
    + intros i j Hi Hj. destruct (Nat.eq_dec i k) as [->|N]; [rewrite V', X, V by lia; reflexivity|]. rewrite W' by auto. apply W; lia.
    + intros i j Hi. rewrite W' by lia. apply X. lia.
  - rewrite E. cbn [bind]. exists t. splits; auto. intros k j Hk Hj. apply W; lia.
Qed.

Lemma ders_basis_funs_ok p uu u span upto ndu lf rg ders a : (p <= span)%nat -> (span + p < length uu)%nat -> (upto <= p)%nat ->
  mat (p + 1) (p + 1) ndu -> length lf = (p + 1)%nat -> length rg = (p + 1)%nat -> mat (p + 1) (p + 1) ders -> mat 2 (p + 1) a ->
  exists ndu' lf' rg' ders' a', ders_basis_funs p uu u span upto (ndu, lf, rg) ders a = Ok ((ndu', lf', rg'), ders', a') /\
    mat (p + 1) (p + 1) ndu' /\ length lf' = (p + 1)%nat /\ length rg' = (p + 1)%nat /\ mat (p + 1) (p + 1) ders' /\ mat 2 (p + 1) a' /\
    (forall j r, (r <= j <= p)%nat -> g2 ndu' r j = tri (knot uu) u span j r) /\
    (forall j r, (r < j <= p)%nat -> g2 ndu' j r = diff (knot uu) u span j r) /\
    (forall k r, (k <= upto)%nat -> (r <= p)%nat -> g2 ders' k r = dcurve (knot uu) span p (delta r) k u).
Proof.
  intros Hp Hsp Hup Hm Hlf Hrg Md Ma. unfold ders_basis_funs.
  destruct (basis_funs_ok p uu u span ndu lf rg Hp Hsp Hm Hlf Hrg) as (n' & l' & r' & Eb & M' & L' & R' & T1 & T2). rewrite Eb. cbn [bind].
  destruct (load_basis_ok p n' ders M' Md) as (d1 & E1 & M1 & V1 & W1). rewrite E1. cbn [bind].
  destruct (for_range_inv (fun r st => let '(d, a') := st in mat (p + 1) (p + 1) d /\ mat 2 (p + 1) a' /\ (forall j, g2 d 0 j = g2 d1 0 j) /\
      (forall k i, (1 <= k <= upto)%nat -> (i < r)%nat -> g2 d k i = raw (knot uu) u span p i k))
    (ders_row p upto n') 0 (p + 1) (d1, a)) as ([d2 a2] & E2 & M2 & Ma2 & V2 & W2).
  - lia.
  - splits; auto. intros; lia.
  - intros r [d a'] Hr (I1 & I2 & I3 & I4).
    destruct (ders_row_ok (knot uu) u span p n' M' T1 T2 r upto d a' ltac:(lia) Hup I1 I2) as (d3 & a3 & E3 & M3 & Ma3 & V3 & W3).
    eexists. split; [exact E3|]. cbv beta iota. splits; auto.
    + intros j. rewrite W3 by auto. auto.
    + intros k i Hk Hi. destruct (Nat.eq_dec i r) as [->|N]; [now apply V3|]. rewrite W3 by auto. apply I4; lia.
  - rewrite E2. cbn [bind]. destruct (scale_ders_ok p upto d2 Hup M2) as (d3 & E3 & M3 & V3). rewrite E3. cbn [bind].
    exists n', l', r', d3, a2. splits; auto. intros k r Hk Hr. rewrite V3 by auto. unfold dcurve. rewrite Rmult_comm. f_equal.
    destruct k as [|k].
    + rewrite V2, V1, T1 by lia. rewrite Nat.sub_0_r. rewrite (sumn_single _ _ r); [|lia|].
      * cbn [cp]. unfold delta. rewrite Nat.eqb_refl. ring.
      * intros i Hi N. cbn [cp]. unfold delta. destruct (Nat.eqb_spec i r); [lia|]. ring.
    + rewrite W2 by lia. reflexivity.
Qed.

(* ------------------------------------------------------------------ *)
(** * From the triangle to the Cox-de Boor functions *)

Lemma nth_deriv_ext k : forall f f' g, (forall x, f x = f' x) -> nth_deriv k f g -> nth_deriv k f' g.
Proof.
  induction k as [|k IH]; intros f f' g H D; cbn in *.
  - intros x. now rewrite D.
  - destruct D as (h & D & E). exists h. split; auto. apply (IH f); auto.
Qed.
Lemma nth_deriv_zero k f : (forall x, f x = 0) -> nth_deriv k f (fun _ => 0).
Proof.
  intros H. induction k as [|k IH]; cbn; [intros; now rewrite H|]. exists (fun _ => 0). split; auto. intros x. apply derivable_pt_lim_const.
Qed.

Section Spec.
Variables (uu : list R) (p : nat) (u : R) (s : nat).
Notation U := (knot uu).
Notation last := (knot uu (length uu - 1)).
Hypothesis Hs : sorted uu.
Hypothesis Hc : clamped p uu.
Hypothesis Hps : (p <= s)%nat.
Hypothesis Hsp : (s + p + 1 < length uu)%nat.
Hypothesis Hin : in_span U last u s.

Lemma dd_pos j r : (r < j <= p)%nat -> 0 < dd U s j r.
Proof. intros H. rewrite <- (diff_dd U s u). apply (diff_pos uu p u s Hs Hps Hsp Hin). auto. Qed.

Lemma span_unique v : in_span U last v s -> forall s', (S s' < length uu)%nat -> in_span U last v s' -> s' = s.
Proof.
  intros Hv s' Hs' Hv'.
  assert (Hr : U 0%nat <= v <= last).
  { pose proof (Hs 0%nat s ltac:(lia)). pose proof (Hs (S s) (length uu - 1)%nat ltac:(lia)). destruct Hv as [Hv|(? & ? & ?)]; lra. }
  destruct (C28_span p uu v (length uu) Hs Hc (le_n _) Hr) as (s0 & _ & _ & _ & Q).
  rewrite (Q s') by auto. symmetry. apply Q; auto. lia.
Qed.

(** a combination of all the functions, on the span *)
Lemma cox_comb v (Q : nat -> R) : in_span U last v s ->
  sumn (S p) (fun j => Q (s - p + j)%nat * tri U v s p j) = sumn (length uu - 1 - p) (fun i => cox U last v p i * Q i).
Proof.
  intros Hv. pose proof (span_unique v Hv) as Hq.
  replace (length uu - 1 - p)%nat with ((s - p) + (S p + (length uu - 2 - p - s)))%nat by lia. rewrite !sumn_app.
  rewrite (sumn_zero (s - p)). 2: { intros i Hi. rewrite (cox_zero uu p v s ltac:(lia) ltac:(lia) Hq) by lia. ring. }
  rewrite (sumn_zero (length uu - 2 - p - s)). 2: { intros i Hi. rewrite (cox_zero uu p v s ltac:(lia) ltac:(lia) Hq) by lia. ring. }
  rewrite Rplus_0_l, Rplus_0_r. apply sumn_ext. intros j Hj. rewrite (cox_tri uu p v s Hs Hps Hsp Hv Hq p) by lia. ring.
Qed.

(** the derivative of a combination *)
Lemma comb_deriv (Q : nat -> R) k : (k <= p)%nat ->
  deriv_in_span uu u (fun v => sumn (length uu - 1 - p) (fun i => cox U last v p i * Q i)) k (dcurve U s p (fun j => Q (s - p + j)%nat) k u).
Proof.
  intros Hk. exists s, (fun v => sumn (S p) (fun j => Q (s - p + j)%nat * tri U v s p j)), (dcurve U s p (fun j => Q (s - p + j)%nat) k).
  splits; auto; try lia.
  - intros v Hv. now apply cox_comb.
  - apply (dcurve_nth U s p dd_pos). auto.
Qed.
(** beyond the degree *)
Lemma comb_deriv_high (Q : nat -> R) k : (p < k)%nat ->
  deriv_in_span uu u (fun v => sumn (length uu - 1 - p) (fun i => cox U last v p i * Q i)) k 0.
Proof.
  intros Hk. exists s, (fun v => sumn (S p) (fun j => Q (s - p + j)%nat * tri U v s p j)), (fun _ => 0). splits; auto; try lia.
  - intros v Hv. now apply cox_comb.
  - replace k with (S p + (k - S p))%nat by lia. induction (k - S p)%nat as [|n IH].
    + rewrite Nat.add_0_r. exists (dcurve U s p (fun j => Q (s - p + j)%nat) p). split; [apply (dcurve_nth U s p dd_pos); auto|].
      intros x. set (w := dcurve U s p (fun j => Q (s - p + j)%nat) p 0).
      apply (derivable_pt_lim_ext (fun _ => w)); [|apply derivable_pt_lim_const].
      intros y. unfold w, dcurve. rewrite Nat.sub_diag. reflexivity.
    + replace (S p + S n)%nat with (S (S p + n)) by lia. exists (fun _ => 0). split; auto. intros x. apply derivable_pt_lim_const.
Qed.
End Spec.

(** linearity of the coefficients *)
Lemma cp_linear U s p (P : nat -> R) k : forall i, (i + k <= p)%nat -> cp U s p P k i = sumn (S p) (fun r => cp U s p (delta r) k i * P r).
Proof.
  induction k as [|k IH]; intros i Hi; cbn [cp].
  - rewrite (sumn_single _ _ i); [unfold delta; rewrite Nat.eqb_refl; ring|lia|]. intros r Hr N. unfold delta. destruct (Nat.eqb_spec i r); [lia|ring].
  - rewrite !IH by lia. rewrite <- sumn_minus. unfold Rdiv. rewrite <- sumn_scal_r. apply sumn_ext. intros r Hr. ring.
Qed.
Lemma dcurve_linear U s p (P : nat -> R) k u : (k <= p)%nat -> dcurve U s p P k u = sumn (S p) (fun r => dcurve U s p (delta r) k u * P r).
Proof.
  intros Hk. unfold dcurve. rewrite (sumn_ext (S p) _ (fun r => fall p k * (sumn (S (p - k)) (fun i => cp U s p (delta r) k i * tri U u s (p - k) i) * P r))) by (intros; ring).
  rewrite sumn_scal. f_equal. rewrite (sumn_ext (S p) _ (fun r => sumn (S (p - k)) (fun i => cp U s p (delta r) k i * tri U u s (p - k) i * P r))) by (intros; now rewrite sumn_scal_r).
  rewrite sumn_swap. apply sumn_ext. intros i Hi. rewrite cp_linear by lia. rewrite <- sumn_scal_r. apply sumn_ext. intros r Hr. ring.
Qed.

(* ------------------------------------------------------------------ *)
(** * The basis functions *)

(** the arrays of an instance of degree p on the knots uu *)
Definition dspline_ok (p : nat) (uu : list R) (x : dspline) : Prop :=
  spline_ok p uu (d_b x) /\ mat (p + 1) (p + 1) (d_ders x) /\ mat 2 (p + 1) (d_a x).

(** C108: creation establishes the invariant. *)
Theorem C108_new p uu : match dspline_new p uu with
  | Ok x => dspline_ok p uu x /\ d_cc x = [] /\ d_pp x = []
  | Err _ => p = 0%nat \/ (length uu < 2 * (p + 1))%nat
  | Panic => False
  end.
Proof.
  pose proof (C28_new p uu) as H. unfold dspline_new. destruct (bspline_new p uu) as [b|e|]; cbn [bind]; auto.
  unfold dspline_ok. cbn [d_b d_ders d_a d_cc d_pp]. splits; auto; apply mat_repeat.
Qed.

Lemma derivs_values p uu x u upto fuel : sorted uu -> clamped p uu -> dspline_ok p uu x -> (length uu <= fuel)%nat ->
  knot uu 0 <= u <= knot uu (length uu - 1) -> (upto <= p)%nat ->
  exists x' s, calc_basis_and_derivs fuel x u upto = Ok x' /\ dspline_ok p uu x' /\
    (p <= s <= length uu - p - 2)%nat /\ in_span (knot uu) (knot uu (length uu - 1)) u s /\
    forall i k, (i < length uu - 1 - p)%nat -> (k <= upto)%nat -> get_basis_deriv x' i k = Ok (dcurve (knot uu) s p (fun j => delta i (s - p + j)) k u).
Proof.
  intros Hs Hc Hx Hf Hu Hup. destruct Hx as (Hb & Md & Ma). destruct (sorted_range p uu (d_b x) Hs Hb) as [Emin Emax].
  pose proof Hb as (B1 & B2 & B3 & B4 & B5 & B6 & B7 & B8 & B9 & B10).
  destruct (C28_span p uu u fuel Hs Hc Hf Hu) as (s & Es & S1 & S2 & S3).
  destruct (ders_basis_funs_ok p uu u s upto (b_ndu (d_b x)) (b_left (d_b x)) (b_right (d_b x)) (d_ders x) (d_a x) ltac:(lia) ltac:(lia) Hup B3 B4 B5 Md Ma)
    as (n' & l' & r' & ds & a' & Eb & M' & L' & R' & Md' & Ma' & T1 & T2 & V).
  exists (mkD (with_span (d_b x) s (n', l', r')) ds a' (d_cc x) (d_pp x)), s. splits; auto; try lia.
  - unfold calc_basis_and_derivs. cbv zeta. rewrite B1, B2, Emin, Emax. destruct (Rltb_spec u (knot uu 0)); [lra|]. destruct (Rltb_spec (knot uu (length uu - 1)) u); [lra|].
    cbn [orb]. destruct (Nat.ltb_spec p upto); [lia|]. rewrite Es. cbn [bind ended]. rewrite Eb. reflexivity.
  - unfold dspline_ok. cbn [d_b d_ders d_a]. splits; auto. unfold spline_ok, with_span. cbn [b_p b_uu b_ndu b_left b_right b_umin b_umax]. splits; auto.
  - intros i k Hi Hk. unfold get_basis_deriv, with_span. cbn [d_b d_ders b_span b_p]. rewrite B1.
    destruct (Nat.leb_spec s (i + p)); destruct (Nat.leb_spec i s); cbn [andb].
    + unfold usub. destruct (Nat.leb_spec s (i + p)); [|lia]. cbn [bind]. rewrite (get2_ok (p + 1) (p + 1)) by (auto; lia). rewrite V by lia. f_equal.
      rewrite (dcurve_linear _ _ _ (fun j => delta i (s - p + j)) k u) by lia. rewrite (sumn_single _ _ (i + p - s)%nat); [|lia|].
      * rewrite (delta_eq i (s - p + (i + p - s))) by lia. ring.
      * intros r Hr N. rewrite (delta_ne i (s - p + r)) by lia. ring.
    + f_equal. rewrite dcurve_linear by lia. symmetry. apply sumn_zero. intros r Hr. rewrite (delta_ne i (s - p + r)) by lia. ring.
    + f_equal. rewrite dcurve_linear by lia. symmetry. apply sumn_zero. intros r Hr. rewrite (delta_ne i (s - p + r)) by lia. ring.
    + lia.
Qed.

(** the coefficients of the constant one *)
Lemma cp_one U s p k : forall i, cp U s p (fun _ => 1) (S k) i = 0.
Proof. induction k as [|k IH]; intros i; [cbn; unfold Rdiv; ring|]. change (cp U s p (fun _ => 1) (S (S k)) i) with ((cp U s p (fun _ => 1) (S k) (S i) - cp U s p (fun _ => 1) (S k) i) / dd U s (p - S k) i). rewrite !IH. unfold Rdiv. ring. Qed.

(** C108: on a sorted clamped knot vector and within its range, calc_basis_and_derivs
    answers for every order up to the degree; get_basis_deriv then gives the k-th
    derivative of the Cox-de Boor function i on the knot span of u, and the
    derivatives of every order from one on sum to zero. *)
Theorem C108_basis p uu x u upto fuel : sorted uu -> clamped p uu -> dspline_ok p uu x -> (length uu <= fuel)%nat ->
  knot uu 0 <= u <= knot uu (length uu - 1) -> (upto <= p)%nat ->
  let nb := (length uu - 1 - p)%nat in
  exists x' (D : nat -> nat -> R), calc_basis_and_derivs fuel x u upto = Ok x' /\ dspline_ok p uu x' /\
    (forall i k, (i < nb)%nat -> (k <= upto)%nat -> get_basis_deriv x' i k = Ok (D k i) /\
      deriv_in_span uu u (fun v => cox (knot uu) (knot uu (length uu - 1)) v p i) k (D k i)) /\
    (forall k, (1 <= k <= upto)%nat -> sumn nb (D k) = 0).
Proof.
  intros Hs Hc Hx Hf Hu Hup nb. destruct (derivs_values p uu x u upto fuel Hs Hc Hx Hf Hu Hup) as (x' & s & E & Hx' & S1 & S2 & V).
  exists x', (fun k i => dcurve (knot uu) s p (fun j => delta i (s - p + j)) k u). splits; auto.
  - intros i k Hi Hk. split; [now apply V|]. set (last := knot uu (length uu - 1)).
    assert (Ec : forall v, sumn nb (fun j => cox (knot uu) last v p j * delta i j) = cox (knot uu) last v p i).
    { intros v. rewrite (sumn_single _ _ i); [rewrite delta_eq by auto; ring|auto|]. intros j Hj N. rewrite delta_ne by auto. ring. }
    destruct (comb_deriv uu p u s Hs Hc ltac:(lia) ltac:(lia) S2 (delta i) k ltac:(lia)) as (s0 & f & g & D0 & D1 & D2 & D3 & D4).
    exists s0, f, g. splits; auto. intros v Hv. rewrite D2 by auto. apply Ec.
  - intros k Hk.
    rewrite (sumn_ext nb _ (fun i => sumn (S p) (fun r => dcurve (knot uu) s p (delta r) k u * delta i (s - p + r)))) by (intros i Hi; apply dcurve_linear; lia).
    rewrite sumn_swap. rewrite (sumn_ext (S p) _ (fun r => dcurve (knot uu) s p (delta r) k u * 1)).
    2: { intros r Hr. rewrite sumn_scal. f_equal. rewrite (sumn_single _ _ (s - p + r)%nat); [apply delta_eq; auto|unfold nb; lia|]. intros i Hi N. apply delta_ne. auto. }
    rewrite <- (dcurve_linear _ _ _ (fun _ => 1)) by lia. unfold dcurve. destruct k as [|k]; [lia|].
    rewrite sumn_zero; [ring|]. intros i Hi. rewrite cp_one. ring.
Qed.

(** C108: outside the range of the knots, or for an order above the degree,
    calc_basis_and_derivs reports an error. *)
Theorem C108_errors p uu x u upto fuel : sorted uu -> dspline_ok p uu x ->
  (u < knot uu 0 \/ knot uu (length uu - 1) < u -> calc_basis_and_derivs fuel x u upto = Err "u is out of range") /\
  (knot uu 0 <= u <= knot uu (length uu - 1) -> (p < upto)%nat -> calc_basis_and_derivs fuel x u upto = Err "upto must be in [0, p]").
Proof.
  intros Hs (Hb & _). destruct (sorted_range p uu (d_b x) Hs Hb) as [Emin Emax]. destruct Hb as (B1 & _).
  unfold calc_basis_and_derivs. cbv zeta. rewrite B1, Emin, Emax. split.
  - intros Hu. destruct (Rltb_spec u (knot uu 0)); destruct (Rltb_spec (knot uu (length uu - 1)) u); auto; lra.
  - intros Hu Hp. destruct (Rltb_spec u (knot uu 0)); [lra|]. destruct (Rltb_spec (knot uu (length uu - 1)) u); [lra|]. cbn [orb].
    destruct (Nat.ltb_spec p upto); [reflexivity|lia].
Qed.

(* ------------------------------------------------------------------ *)
(** * Curves *)

(** the curve derivatives of an instance with control points in ndim dimensions *)
Definition mat3 (n nb ndim : nat) (m : list (list (list R))) : Prop := length m = n /\ forall k, (k < n)%nat -> mat nb ndim (nth k m []).
Definition g3 (m : list (list (list R))) (k i l : nat) : R := g2 (nth k m []) i l.

Lemma get3_ok n nb ndim m k i l : mat3 n nb ndim m -> (k < n)%nat -> (i < nb)%nat -> (l < ndim)%nat -> get3 m k i l = Ok (g3 m k i l).
Proof. intros [H1 H2] Hk Hi Hl. unfold get3. rewrite (vget_ok _ _ []) by lia. cbn [bind]. apply (get2_ok nb ndim); auto. Qed.
Lemma set3_ok n nb ndim m k i l x : mat3 n nb ndim m -> (k < n)%nat -> (i < nb)%nat -> (l < ndim)%nat ->
  exists m', set3 m k i l x = Ok m' /\ mat3 n nb ndim m' /\ g3 m' k i l = x /\ (forall a b c, (a <> k \/ b <> i \/ c <> l) -> g3 m' a b c = g3 m a b c).
Proof.
  intros [H1 H2] Hk Hi Hl. unfold set3. rewrite (vget_ok _ _ []) by lia. cbn [bind].
  destruct (set2_ok nb ndim (nth k m []) i l x (H2 k Hk) Hi Hl) as (t & E & M & V & W). rewrite E. cbn [bind]. rewrite vset_ok by lia.
  eexists. split; [reflexivity|]. splits.
  - split; [now rewrite upd_length|]. intros a Ha. rewrite nth_upd by lia. destruct (Nat.eqb_spec a k) as [->|]; auto.
  - unfold g3. rewrite nth_upd_eq by lia. auto.
  - intros a b c H. unfold g3. rewrite nth_upd by lia. destruct (Nat.eqb_spec a k) as [->|]; auto. apply W. lia.
Qed.

(** filling the level k *)
Lemma fill_level n nb ndim k cnt (v : nat -> nat -> R) m0 (F : nat -> nat -> list (list (list R)) -> res (list (list (list R)))) :
  mat3 n nb ndim m0 -> (k < n)%nat -> (cnt <= nb)%nat ->
  (forall i l m, (i < cnt)%nat -> (l < ndim)%nat -> mat3 n nb ndim m -> (forall a b c, a <> k -> g3 m a b c = g3 m0 a b c) -> F i l m = set3 m k i l (v i l)) ->
  exists m', for_range 0 cnt (fun i => for_range 0 ndim (F i)) m0 = Ok m' /\ mat3 n nb ndim m' /\
    (forall i l, (i < cnt)%nat -> (l < ndim)%nat -> g3 m' k i l = v i l) /\ (forall a b c, a <> k -> g3 m' a b c = g3 m0 a b c).
Proof.
  intros Hm Hk Hc HF.
  destruct (for_range_inv (fun i m => mat3 n nb ndim m /\ (forall i' l, (i' < i)%nat -> (l < ndim)%nat -> g3 m k i' l = v i' l) /\ (forall a b c, a <> k -> g3 m a b c = g3 m0 a b c))
    (fun i => for_range 0 ndim (F i)) 0 cnt m0) as (m' & E & M & V & W).
  - lia.
  - splits; auto. intros; lia.
  - intros i m Hi (M & V & W).
    destruct (for_range_inv (fun l m' => mat3 n nb ndim m' /\ (forall l', (l' < l)%nat -> g3 m' k i l' = v i l') /\ (forall a b c, (a <> k \/ b <> i) -> g3 m' a b c = g3 m a b c))
      (F i) 0 ndim m) as (m' & E & M' & V' & W').
    + lia.
    + splits; auto. intros; lia.
    + intros l m' Hl (M' & V' & W'). rewrite HF; auto; try lia; [|intros a b c H; rewrite W' by auto; auto].
      destruct (set3_ok n nb ndim m' k i l (v i l) M' Hk ltac:(lia) ltac:(lia)) as (m2 & E2 & M2 & V2 & W2). exists m2. splits; auto.
      * intros l' Hl'. destruct (Nat.eq_dec l' l) as [->|N]; auto. rewrite W2 by auto. apply V'. lia.
      * intros a b c H. rewrite W2 by lia. auto.
    + exists m'. splits; auto.
      * intros i' l Hi' Hl. destruct (Nat.eq_dec i' i) as [->|N]; [auto|]. rewrite W' by auto. apply V; lia.
      * intros a b c H. rewrite W' by auto. auto.
  - exists m'. splits; auto.
Qed.

(** what curve_derivs_* may find in the two arrays of earlier calls *)
Definition curves_ok (p nb ndim : nat) (x : dspline) : Prop :=
  (length (d_cc x) <> (p + 1)%nat \/ mat (p + 1) ndim (d_cc x)) /\ (length (d_pp x) <> (p + 1)%nat \/ mat3 (p + 1) nb ndim (d_pp x)).

Lemma mat3_repeat n nb ndim : mat3 n nb ndim (repeat (repeat (repeat 0 ndim) nb) n).
Proof. split; [apply repeat_length|]. intros i Hi. rewrite nth_repeat_lt by auto. apply mat_repeat. Qed.

Lemma cpts_ok p uu b ppd upto s ndim : b_p b = p -> b_uu b = uu -> (p <= s)%nat -> (s + p + 1 < length uu)%nat -> (upto <= p)%nat -> (0 < ndim)%nat ->
  mat (length uu - 1 - p) ndim (b_pp b) -> (length ppd <> (p + 1)%nat \/ mat3 (p + 1) (length uu - 1 - p) ndim ppd) ->
  exists m, curve_deriv_cpts b ppd upto (s - p) s = Ok m /\ mat3 (p + 1) (length uu - 1 - p) ndim m /\
    (forall k i l, (k <= upto)%nat -> (i <= p - k)%nat -> (l < ndim)%nat ->
      g3 m k i l = fall p k * cp (knot uu) s p (fun j => g2 (b_pp b) (s - p + j) l) k i).
Proof.
  intros B1 B2 Hps Hsp Hup Hn Hm Hd. unfold curve_deriv_cpts, num_basis, usub. rewrite B1, B2.
  destruct (Nat.leb_spec 1 (length uu)); [|lia]. cbn [bind]. destruct (Nat.leb_spec p (length uu - 1)); [|lia]. cbn [bind].
  set (nb := (length uu - 1 - p)%nat) in *. pose proof Hm as [Hm1 Hm2]. rewrite Hm1, Nat.eqb_refl. cbn [assert_ bind].
  rewrite (vget_ok _ _ []) by lia. cbn [bind]. rewrite Hm2 by lia. destruct (Nat.ltb_spec 0 ndim); [|lia]. cbn [assert_ bind].
  destruct (Nat.leb_spec upto p); [|lia]. cbn [assert_ bind]. destruct (Nat.leb_spec (s - p) s); [|lia]. cbn [assert_ bind]. cbv zeta.
  replace (s - (s - p))%nat with p by lia.
  set (m0 := if negb (length ppd =? p + 1)%nat then _ else ppd).
  assert (M0 : mat3 (p + 1) nb ndim m0).
  { unfold m0. destruct (Nat.eqb_spec (length ppd) (p + 1)); cbn [negb]; [|apply mat3_repeat]. destruct Hd; [contradiction|auto]. }
  clearbody m0.
  match goal with |- context [for_range 0 (p + 1) (fun i => for_range 0 ndim (@?F i)) m0] =>
    destruct (fill_level (p + 1) nb ndim 0 (p + 1) (fun i l => g2 (b_pp b) (s - p + i) l) m0 F M0 ltac:(lia) ltac:(lia)) as (m1 & E1 & M1 & V1 & _) end.
  { intros i l m Hi Hl Hmm _. rewrite (get2_ok nb ndim) by (auto; lia). reflexivity. }
  rewrite E1. cbn [bind].
  match goal with |- context [for_range 1 (upto + 1) ?F m1] =>
    destruct (for_range_inv (fun k m => mat3 (p + 1) nb ndim m /\ (forall k' i l, (k' < k)%nat -> (i <= p - k')%nat -> (l < ndim)%nat ->
      g3 m k' i l = fall p k' * cp (knot uu) s p (fun j => g2 (b_pp b) (s - p + j) l) k' i)) F 1 (upto + 1) m1) as (m2 & E2 & M2 & V2) end.
  - lia.
  - split; auto. intros k' i l Hk' Hi Hl. replace k' with 0%nat in * by lia. rewrite V1 by lia. cbn. ring.
  - intros k m Hk (M & V). destruct (Nat.leb_spec k p); [|lia]. cbn [bind].
    match goal with |- context [for_range 0 (p - k + 1) (fun i => for_range 0 ndim (@?F i)) m] =>
      destruct (fill_level (p + 1) nb ndim k (p - k + 1) (fun i l => fall p k * cp (knot uu) s p (fun j => g2 (b_pp b) (s - p + j) l) k i) m F M ltac:(lia) ltac:(lia)) as (m' & E' & M' & V' & W') end.
    + intros i l m' Hi Hl Mm Hag. destruct (Nat.leb_spec 1 k); [|lia]. cbn [bind].
      rewrite (get3_ok (p + 1) nb ndim) by (auto; lia). cbn [bind]. rewrite (get3_ok (p + 1) nb ndim) by (auto; lia). cbn [bind].
      rewrite vgetk by lia. cbn [bind]. rewrite vgetk by lia. cbn [bind]. f_equal. rewrite !Hag by lia. rewrite !V by lia.
      destruct k as [|k']; [lia|]. cbn [fall cp]. replace (S k' - 1)%nat with k' by lia.
      unfold dd. replace (s + (i + 1))%nat with (s - p + i + p + 1)%nat by lia. replace (s + 1 - (p - k' - i))%nat with (s - p + i + S k')%nat by lia.
      replace (p - S k' + 1)%nat with (p - k')%nat by lia. replace (i + 1)%nat with (S i) by lia. unfold Rdiv. ring.
    + exists m'. split; [exact E'|]. split; auto. intros k' i l Hk' Hi Hl. destruct (Nat.eq_dec k' k) as [->|N]; [apply V'; lia|].
      rewrite W' by auto. apply V; lia.
  - exists m2. splits; auto. intros k i l Hk Hi Hl. apply V2; lia.
Qed.

(** the rows of cc_ders *)
Lemma rows_ok p ndim upto (w : nat -> nat -> R) cc G : (upto <= p)%nat -> mat (p + 1) ndim cc ->
  (forall k row, (k <= upto)%nat -> length row = ndim -> exists row', G k row = Ok row' /\ length row' = ndim /\ forall l, (l < ndim)%nat -> nth l row' 0 = w k l) ->
  exists cc', for_range 0 (upto + 1) (fun k cc => row <- vget cc k ;; row <- G k row ;; vset cc k row) cc = Ok cc' /\ mat (p + 1) ndim cc' /\
    (forall k l, (k <= upto)%nat -> (l < ndim)%nat -> g2 cc' k l = w k l).
Proof.
  intros Hup Hm HG.
  match goal with |- context [for_range 0 (upto + 1) ?F cc] =>
  destruct (for_range_inv (fun k c => mat (p + 1) ndim c /\ forall k' l, (k' < k)%nat -> (l < ndim)%nat -> g2 c k' l = w k' l) F 0 (upto + 1) cc) as (cc' & E & M & V) end.
  - lia.
  - split; auto. intros; lia.
  - intros k c Hk (M & V). pose proof M as [M1 M2]. rewrite (vget_ok _ _ []) by lia. cbn [bind].
    destruct (HG k (nth k c []) ltac:(lia) (M2 k ltac:(lia))) as (row & E & L & W). rewrite E. cbn [bind]. rewrite vset_ok by lia.
    eexists. split; [reflexivity|]. split.
    + split; [now rewrite upd_length|]. intros i Hi. rewrite nth_upd by lia. destruct (Nat.eqb_spec i k); auto.
    + intros k' l Hk' Hl. unfold g2. rewrite nth_upd by lia. destruct (Nat.eqb_spec k' k) as [->|N]; [auto|]. apply V; lia.
  - exists cc'. splits; auto. intros k l Hk Hl. apply V; lia.
Qed.

Lemma fit_cc_ok p ndim cc : (length cc <> (p + 1)%nat \/ mat (p + 1) ndim cc) -> mat (p + 1) ndim (fit_cc p ndim cc).
Proof. intros H. unfold fit_cc. destruct (Nat.eqb_spec (length cc) (p + 1)); cbn [negb]; [|apply mat_repeat]. destruct H; [contradiction|auto]. Qed.

Lemma zero_row (row : list R) l : nth l (map (fun _ => 0) row) 0 = 0.
Proof. revert l; induction row as [|x row IH]; intros [|l]; cbn; auto. Qed.

(** C108: with control points in ndim dimensions, calc_curve_derivs answers by either
    method, for every order asked; get_curve_deriv then gives, for every order up to
    the one asked and for every order beyond the degree, the k-th derivative of the
    curve on the knot span of u.  The instance can be used again. *)
Theorem C108_curve p uu x u upto fuel ndim (use_control : bool) : sorted uu -> clamped p uu -> dspline_ok p uu x -> (length uu <= fuel)%nat ->
  knot uu 0 <= u <= knot uu (length uu - 1) -> (0 < ndim)%nat ->
  let nb := (length uu - 1 - p)%nat in let pp := b_pp (d_b x) in let N := cox (knot uu) (knot uu (length uu - 1)) in
  mat nb ndim pp -> curves_ok p nb ndim x ->
  exists x', calc_curve_derivs fuel x u upto use_control = Ok x' /\ dspline_ok p uu x' /\ b_pp (d_b x') = pp /\ curves_ok p nb ndim x' /\
    forall cck k, length cck = ndim -> (k <= upto \/ p < k)%nat ->
      exists dk, get_curve_deriv x' cck k = Ok dk /\ length dk = ndim /\
        forall l, (l < ndim)%nat -> deriv_in_span uu u (fun v => sumn nb (fun i => N v p i * g2 pp i l)) k (nth l dk 0).
Proof.
  intros Hs Hc Hx Hf Hu Hn nb pp N Hm [Hcc Hpd]. destruct Hx as (Hb & Md & Ma).
  pose proof Hb as (B1 & B2 & B3 & B4 & B5 & B6 & B7 & B8 & B9 & B10).
  destruct (C28_span p uu u fuel Hs Hc Hf Hu) as (s & Es & S1 & S2 & S3).
  set (up := Nat.min upto p).
  destruct (ders_basis_funs_ok p uu u s up (b_ndu (d_b x)) (b_left (d_b x)) (b_right (d_b x)) (d_ders x) (d_a x) ltac:(lia) ltac:(lia) ltac:(unfold up; lia) B3 B4 B5 Md Ma)
    as (n' & l' & r' & ds & a' & Eb & M' & L' & R' & Md' & Ma' & T1 & T2 & V).
  set (b' := with_span (d_b x) (b_span (d_b x)) (n', l', r')).
  set (w := fun k l => dcurve (knot uu) s p (fun j => g2 pp (s - p + j) l) k u).
  assert (Hb' : spline_ok p uu b') by (unfold spline_ok, b', with_span; cbn [b_p b_uu b_ndu b_left b_right b_umin b_umax]; splits; auto).
  pose proof (fit_cc_ok p ndim (d_cc x) Hcc) as Mc. pose proof Hm as [Hm1 Hm2].
  assert (X : exists cc' pd', calc_curve_derivs fuel x u upto use_control = Ok (mkD b' ds a' cc' pd') /\ mat (p + 1) ndim cc' /\
    (length pd' <> (p + 1)%nat \/ mat3 (p + 1) nb ndim pd') /\ (forall k l, (k <= up)%nat -> (l < ndim)%nat -> g2 cc' k l = w k l)).
  { unfold calc_curve_derivs. rewrite B1. fold up. cbv zeta. destruct use_control.
    - unfold curve_derivs_alg2, num_basis. unfold usub at 1 2. rewrite B1, B2. fold pp.
      destruct (Nat.leb_spec 1 (length uu)); [|lia]. cbn [bind]. destruct (Nat.leb_spec p (length uu - 1)); [|lia]. cbn [bind]. fold nb.
      rewrite Hm1, Nat.eqb_refl. cbn [assert_ bind]. rewrite (vget_ok _ _ []) by lia. cbn [bind]. rewrite Hm2 by lia.
      destruct (Nat.ltb_spec 0 ndim); [|lia]. cbn [assert_ bind]. destruct (Nat.leb_spec up p); [|unfold up in *; lia]. cbn [assert_ bind]. cbv zeta.
      rewrite Es. cbn [bind ended]. rewrite Eb. cbn [bind]. fold b'. unfold usub at 1. destruct (Nat.leb_spec p s); [|lia]. cbn [bind].
      destruct (cpts_ok p uu b' (d_pp x) up s ndim) as (m & E & Mm & Vm); auto; try lia.
      rewrite E. cbn [bind].
      match goal with |- context [for_range 0 (up + 1) ?F ?C] =>
        destruct (rows_ok p ndim up w C (fun k row => pk <- usub p k ;; t <- vget m k ;; for_range 0 (pk + 1) (fun j row => d <- get2 (b_ndu b') j pk ;; add_point t ndim d j row) (map (fun _ => 0) row))
          ltac:(lia) Mc) as (cc' & E' & Mc' & Vc) end.
      + intros k row Hk Hr. unfold usub. destruct (Nat.leb_spec k p); [|lia]. cbn [bind]. destruct Mm as [Mm1 Mm2]. rewrite (vget_ok _ _ []) by lia. cbn [bind].
        assert (Z0 : length (map (fun _ : R => 0) row) = ndim) by now rewrite map_length.
        match goal with |- context [for_range 0 (p - k + 1) ?F ?C] => destruct (sum_points nb ndim (nth k m []) (fun j => tri (knot uu) u s (p - k) j) 0 (p - k + 1) C (Mm2 k ltac:(lia)) ltac:(lia) Z0 F) as (row' & E' & L & W) end.
        * intros j c Hj. rewrite (get2_ok (p + 1) (p + 1)) by (auto; lia). cbn [bind]. unfold b', with_span. cbn [b_ndu]. rewrite T1 by lia. reflexivity.
        * exists row'. splits; auto. intros l Hl. rewrite W, zero_row by auto. unfold w, dcurve. rewrite <- sumn_scal, Rplus_0_l.
          replace (p - k + 1)%nat with (S (p - k)) by lia. apply sumn_ext. intros j Hj. cbn [Nat.add].
          pose proof (Vm k j l ltac:(lia) ltac:(lia) ltac:(lia)) as Q. unfold g3 in Q. rewrite Q. unfold b', with_span. cbn [b_pp]. fold pp. ring.
      + exists cc', m. splits; auto.
        match type of E' with for_range _ _ ?F1 _ = _ => match goal with |- context [for_range 0 (up + 1) ?F2 _] => replace F2 with F1 end end.
        * rewrite E'. reflexivity.
        * apply functional_extensionality. intros k. apply functional_extensionality. intros c.
          destruct (vget c k); cbn [bind]; auto. destruct (usub p k); cbn [bind]; auto. destruct (vget m k); cbn [bind]; auto.
    - unfold curve_derivs_alg1, num_basis. unfold usub at 1 2. rewrite B1, B2. fold pp.
      destruct (Nat.leb_spec 1 (length uu)); [|lia]. cbn [bind]. destruct (Nat.leb_spec p (length uu - 1)); [|lia]. cbn [bind]. fold nb.
      rewrite Hm1, Nat.eqb_refl. cbn [assert_ bind]. rewrite (vget_ok _ _ []) by lia. cbn [bind]. rewrite Hm2 by lia.
      destruct (Nat.ltb_spec 0 ndim); [|lia]. cbn [assert_ bind]. destruct (Nat.leb_spec up p); [|unfold up in *; lia]. cbn [assert_ bind]. cbv zeta.
      rewrite Es. cbn [bind ended]. rewrite Eb. cbn [bind]. fold b'.
      match goal with |- context [for_range 0 (up + 1) ?F ?C] =>
        destruct (rows_ok p ndim up w C (fun k row => for_range 0 (p + 1) (fun j row => idx <- usub s p ;; d <- get2 ds k j ;; add_point pp ndim d (idx + j) row) (map (fun _ => 0) row))
          ltac:(lia) Mc) as (cc' & E' & Mc' & Vc) end.
      + intros k row Hk Hr. assert (Z0 : length (map (fun _ : R => 0) row) = ndim) by now rewrite map_length.
        match goal with |- context [for_range 0 (p + 1) ?F ?C] => destruct (sum_points nb ndim pp (fun j => dcurve (knot uu) s p (delta j) k u) (s - p) (p + 1) C Hm ltac:(lia) Z0 F) as (row' & E' & L & W) end.
        * intros j c Hj. unfold usub. destruct (Nat.leb_spec p s); [|lia]. cbn [bind]. rewrite (get2_ok (p + 1) (p + 1)) by (auto; lia). cbn [bind]. rewrite V by lia. reflexivity.
        * exists row'. splits; auto. intros l Hl. rewrite W, zero_row by auto. unfold w. rewrite (dcurve_linear _ _ _ (fun j => g2 pp (s - p + j) l)) by lia.
          rewrite Rplus_0_l. replace (p + 1)%nat with (S p) by lia. reflexivity.
      + exists cc', (d_pp x). splits; auto. rewrite E'. reflexivity. }
  destruct X as (cc' & pd' & Ex & Mc' & Mp' & Vc). eexists. split; [exact Ex|]. splits.
  - unfold dspline_ok. cbn [d_b d_ders d_a]. auto.
  - reflexivity.
  - unfold curves_ok. cbn [d_cc d_pp]. split; auto.
  - intros cck k Hl Hk. unfold get_curve_deriv. cbn [d_b d_cc].
    replace (b_p b') with p by (symmetry; apply B1). destruct (Nat.ltb_spec p k) as [C|C].
    + eexists. split; [reflexivity|]. split; [now rewrite map_length|]. intros l Hll. rewrite zero_row.
      apply (comb_deriv_high uu p u s Hs Hc ltac:(lia) ltac:(lia) S2 (fun i => g2 pp i l)); auto.
    + destruct (for_range_inv (fun l c => length c = ndim /\ forall l', (l' < l)%nat -> nth l' c 0 = g2 cc' k l') (fun l cck => v <- get2 cc' k l ;; vset cck l v) 0 (length cck) cck) as (dk & E & L & W).
      * lia.
      * split; auto. intros; lia.
      * intros l c Hll (L & W). rewrite (get2_ok (p + 1) ndim) by (auto; lia). cbn [bind]. rewrite vset_ok by lia. eexists. split; [reflexivity|].
        split; [now rewrite upd_length|]. intros i Hi. rewrite nth_upd by lia. destruct (Nat.eqb_spec i l) as [->|Ni]; auto. apply W. lia.
      * exists dk. splits; auto. intros l Hll. rewrite W by lia. rewrite Vc by (unfold up; lia). unfold w.
        apply (comb_deriv uu p u s Hs Hc ltac:(lia) ltac:(lia) S2 (fun i => g2 pp i l)); auto.
Qed.


(* ------------------------------------------------------------------ *)
(** * The specification determines the value *)

Lemma one_sided h1 h2 x l1 l2 (sg d0 : R) : sg = 1 \/ sg = -1 -> 0 < d0 -> derivable_pt_lim h1 x l1 -> derivable_pt_lim h2 x l2 ->
  h1 x = h2 x -> (forall e, 0 < e < d0 -> h1 (x + sg * e) = h2 (x + sg * e)) -> l1 = l2.
Proof.
  intros Hsg Hd D1 D2 E0 E. destruct (Req_dec l1 l2) as [|N]; auto. exfalso.
  set (eps := Rabs (l1 - l2) / 2). assert (He : 0 < eps) by (unfold eps; pose proof (Rabs_pos_lt (l1 - l2) ltac:(lra)); lra).
  destruct (D1 eps He) as ([e1 P1] & Q1). destruct (D2 eps He) as ([e2 P2] & Q2). cbn in Q1, Q2.
  set (e := Rmin d0 (Rmin e1 e2) / 2). 
  assert (H : 0 < e /\ e < d0 /\ e < e1 /\ e < e2).
  { unfold e. pose proof (Rmin_l d0 (Rmin e1 e2)). pose proof (Rmin_r d0 (Rmin e1 e2)). pose proof (Rmin_l e1 e2). pose proof (Rmin_r e1 e2).
    assert (0 < Rmin d0 (Rmin e1 e2)) by (repeat apply Rmin_pos; auto). lra. }
  assert (Hne : sg * e <> 0) by (destruct Hsg; subst; nra).
  assert (Hab : Rabs (sg * e) = e) by (destruct Hsg; subst sg; [rewrite Rabs_right by lra; ring|rewrite Rabs_left by lra; ring]).
  specialize (Q1 (sg * e) Hne ltac:(lra)). specialize (Q2 (sg * e) Hne ltac:(lra)).
  rewrite E, E0 in Q1 by lra. set (q := (h2 (x + sg * e) - h2 x) / (sg * e)) in *.
  assert (Rabs (l1 - l2) <= Rabs (q - l2) + Rabs (q - l1)).
  { replace (l1 - l2) with ((q - l2) + - (q - l1)) by ring. eapply Rle_trans; [apply Rabs_triang|]. rewrite Rabs_Ropp. lra. }
  unfold eps in *. lra.
Qed.

(** C108: the derivative on the span is unique, whatever smooth function it is
    computed from. *)
Theorem C108_unique p uu u F k d1 d2 : sorted uu -> clamped p uu -> deriv_in_span uu u F k d1 -> deriv_in_span uu u F k d2 -> d1 = d2.
Proof.
  intros Hs Hc (s & f1 & g1 & A1 & A2 & A3 & A4 & ->) (s' & f2 & g2' & B1 & B2 & B3 & B4 & ->).
  set (U := knot uu) in *. set (last := U (length uu - 1)%nat) in *.
  assert (Hq : s' = s).
  { assert (Hr : U 0%nat <= u <= last).
    { pose proof (Hs 0%nat s ltac:(lia)). pose proof (Hs (S s) (length uu - 1)%nat ltac:(lia)). fold U in H, H0. fold last in H0. destruct A2 as [A2|(? & ? & ?)]; lra. }
    destruct (C28_span p uu u (length uu) Hs Hc (le_n _) Hr) as (s0 & _ & _ & _ & Q). rewrite (Q s'), (Q s) by auto. reflexivity. }
  subst s'.
  assert (G : forall k g1 g2', nth_deriv k f1 g1 -> nth_deriv k f2 g2' -> forall v, in_span U last v s -> g1 v = g2' v).
  { clear k g1 g2' A4 B4. induction k as [|k IH]; intros g1 g2' D1 D2 v Hv.
    - cbn in D1, D2. rewrite D1, D2, A3, B3 by auto. reflexivity.
    - destruct D1 as (h1 & D1 & E1). destruct D2 as (h2 & D2 & E2). specialize (IH h1 h2 D1 D2).
      destruct Hv as [Hv|Hv].
      + apply (one_sided h1 h2 v _ _ 1 (U (S s) - v)); auto; try lra; [apply IH; now left|].
        intros e He. apply IH. left. lra.
      + apply (one_sided h1 h2 v _ _ (-1) (v - U s)); auto; try lra; [apply IH; now right|].
        intros e He. apply IH. left. lra. }
  now apply (G k).
Qed.

(** C108: the two methods of calc_curve_derivs give the same derivatives. *)
Theorem C108_methods_agree p uu x u upto fuel ndim x1 x2 k cck : sorted uu -> clamped p uu -> dspline_ok p uu x -> (length uu <= fuel)%nat ->
  knot uu 0 <= u <= knot uu (length uu - 1) -> (0 < ndim)%nat ->
  mat (length uu - 1 - p) ndim (b_pp (d_b x)) -> curves_ok p (length uu - 1 - p) ndim x ->
  calc_curve_derivs fuel x u upto true = Ok x1 -> calc_curve_derivs fuel x u upto false = Ok x2 -> length cck = ndim -> (k <= upto)%nat ->
  get_curve_deriv x1 cck k = get_curve_deriv x2 cck k.
Proof.
  intros Hs Hc Hx Hf Hu Hn Hm Hcu E1 E2 Hl Hk.
  destruct (C108_curve p uu x u upto fuel ndim true Hs Hc Hx Hf Hu Hn Hm Hcu) as (y1 & F1 & _ & _ & _ & G1).
  destruct (C108_curve p uu x u upto fuel ndim false Hs Hc Hx Hf Hu Hn Hm Hcu) as (y2 & F2 & _ & _ & _ & G2).
  rewrite E1 in F1. injection F1 as <-. rewrite E2 in F2. injection F2 as <-.
  destruct (G1 cck k Hl ltac:(auto)) as (d1 & -> & L1 & V1). destruct (G2 cck k Hl ltac:(auto)) as (d2 & -> & L2 & V2).
  f_equal. apply (nth_ext d1 d2 0 0); [lia|]. intros l Hll. eapply (C108_unique p uu); eauto; [apply V1|apply V2]; lia.
Qed.

(* ------------------------------------------------------------------ *)
(** * Control points of another dimension *)

Lemma add_point_short nb ndim pp x idx cc : mat nb ndim pp -> (idx < nb)%nat -> (length cc < ndim)%nat -> add_point pp ndim x idx cc = Panic.
Proof.
  intros Hm Hi Hc. unfold add_point.
  assert (H : forall n lo c, length c = length cc -> (lo + n = ndim)%nat -> (lo <= length cc)%nat ->
    for_n n lo (fun j cc => y <- get2 pp idx j ;; c <- vget cc j ;; vset cc j (c + x * y)) c = Panic).
  { induction n as [|n IH]; intros lo c L Hn Hlo; [lia|]. cbn [for_n]. rewrite (get2_ok nb ndim) by (auto; lia). cbn [bind].
    destruct (Nat.eq_dec lo (length cc)) as [E|N].
    - rewrite vget_panic by lia. reflexivity.
    - rewrite (vget_ok _ _ 0) by lia. cbn [bind]. rewrite vset_ok by lia. cbn [bind]. apply IH; [now rewrite upd_length|lia|lia]. }
  unfold for_range. apply H; lia.
Qed.

(** C108: control points of a higher dimension can be set after derivatives have been
    computed, but the array of the curve derivatives keeps the dimension of the first
    ones: calc_curve_derivs then panics, at every parameter and for every order. *)
Theorem C108_redimension_refuted p uu x u upto fuel n1 ndim : sorted uu -> clamped p uu -> dspline_ok p uu x -> (length uu <= fuel)%nat ->
  knot uu 0 <= u <= knot uu (length uu - 1) ->
  mat (p + 1) n1 (d_cc x) -> (n1 < ndim)%nat -> forall pp, mat (length uu - 1 - p) ndim pp ->
  exists x', d_set_control_points x pp ndim = Ok x' /\ calc_curve_derivs fuel x' u upto false = Panic.
Proof.
  intros Hs Hc Hx Hf Hu Hcc Hn pp Hm. destruct Hx as (Hb & Md & Ma).
  pose proof Hb as (B1 & B2 & B3 & B4 & B5 & B6 & B7 & B8 & B9 & B10). pose proof Hm as [Hm1 Hm2].
  assert (En : num_basis (d_b x) = Ok (length uu - 1 - p)%nat).
  { unfold num_basis, usub. rewrite B1, B2. destruct (Nat.leb_spec 1 (length uu)); [|lia]. cbn [bind]. destruct (Nat.leb_spec p (length uu - 1)); [reflexivity|lia]. }
  eexists. split.
  - unfold d_set_control_points, set_control_points. rewrite En. cbn [bind]. rewrite Hm1, Nat.eqb_refl. cbn [negb].
    destruct (Nat.eqb_spec ndim 0); [lia|]. cbn [bind]. reflexivity.
  - destruct (C28_span p uu u fuel Hs Hc Hf Hu) as (s & Es & S1 & S2 & S3).
    destruct (ders_basis_funs_ok p uu u s (Nat.min upto p) (b_ndu (d_b x)) (b_left (d_b x)) (b_right (d_b x)) (d_ders x) (d_a x) ltac:(lia) ltac:(lia) ltac:(lia) B3 B4 B5 Md Ma)
      as (n' & l' & r' & ds & a' & Eb & M' & L' & R' & Md' & Ma' & T1 & T2 & V).
    unfold calc_curve_derivs, curve_derivs_alg1, num_basis. cbn [d_b b_p b_uu b_pp b_ndu b_left b_right d_ders d_a d_cc]. rewrite B1, B2. unfold usub at 1 2.
    destruct (Nat.leb_spec 1 (length uu)); [|lia]. cbn [bind]. destruct (Nat.leb_spec p (length uu - 1)); [|lia]. cbn [bind].
    rewrite Hm1, Nat.eqb_refl. cbn [assert_ bind]. rewrite (vget_ok _ _ []) by lia. cbn [bind]. rewrite Hm2 by lia.
    destruct (Nat.ltb_spec 0 ndim); [|lia]. cbn [assert_ bind]. destruct (Nat.leb_spec (Nat.min upto p) p); [|lia]. cbn [assert_ bind]. cbv zeta.
    rewrite Es. cbn [bind ended]. rewrite Eb. cbn [bind].
    pose proof Hcc as [C1 C2]. unfold fit_cc. rewrite C1, Nat.eqb_refl. cbn [negb].
    replace (Nat.min upto p + 1)%nat with (S (Nat.min upto p)) by lia. unfold for_range at 1. cbn [Nat.sub for_n].
    rewrite (vget_ok _ _ []) by lia. cbn [bind]. replace (p + 1)%nat with (S p) by lia. unfold for_range. cbn [Nat.sub for_n].
    unfold usub. destruct (Nat.leb_spec p s); [|lia]. cbn [bind]. rewrite (get2_ok (p + 1) (p + 1)) by (auto; lia). cbn [bind].
    rewrite (add_point_short (length uu - 1 - p) ndim) by (auto; rewrite ?map_length, ?C2; lia). reflexivity.
Qed.

(* ------------------------------------------------------------------ *)
(** * The elements *)

(** C28: get_elements lists, in order and once each, exactly the spans longer than the
    tolerance; with the tolerance zero and sorted knots the span found for a parameter
    is one of them. *)
Theorem C28_elements p uu b tol : spline_ok p uu b ->
  exists l, get_elements b tol = Ok l /\
    (forall i j, In (i, j) l <-> (S i < length uu)%nat /\ j = S i /\ tol < Rabs (knot uu (S i) - knot uu i)) /\
    (forall a c, (a < c < length l)%nat -> (fst (nth a l (0, 0)%nat) < fst (nth c l (0, 0)%nat))%nat) /\
    (tol = 0 -> forall u s, in_span (knot uu) (knot uu (length uu - 1)) u s -> (S s < length uu)%nat -> In (s, S s) l).
Proof.
  intros (B1 & B2 & B3 & B4 & B5 & B6 & B7 & _). unfold get_elements. rewrite B2. unfold usub. destruct (Nat.leb_spec 1 (length uu)); [|lia]. cbn [bind].
  match goal with |- context [for_range 0 _ ?F []] =>
  destruct (for_range_inv (fun n l => (forall i j, In (i, j) l <-> (i < n)%nat /\ j = S i /\ tol < Rabs (knot uu (S i) - knot uu i)) /\
    (forall a c, (a < c < length l)%nat -> (fst (nth a l (0, 0)%nat) < fst (nth c l (0, 0)%nat))%nat)) F 0 (length uu - 1) []) as (l & E & I1 & I2) end.
  - lia.
  - split; [|cbn; intros; lia]. intros i j. cbn. split; [tauto|lia].
  - intros n l Hn (I1 & I2). rewrite !vgetk by lia. cbn [bind]. replace (n + 1)%nat with (S n) by lia.
    destruct (Rltb_spec tol (Rabs (knot uu (S n) - knot uu n))) as [C|C]; eexists; (split; [reflexivity|]); split.
    + intros i j. rewrite in_app_iff, I1. cbn. split.
      * intros [(H1 & H2 & H3)|[[= <- <-]|[]]]; splits; auto; lia.
      * intros (H1 & H2 & H3). destruct (Nat.eq_dec i n) as [->|N]; [right; left; congruence|left; splits; auto; lia].
    + intros a c. rewrite app_length. cbn [length]. intros Hac. destruct (Nat.eq_dec c (length l)) as [->|N].
      * rewrite (app_nth1 l) by lia. rewrite (app_nth2 l) by lia. rewrite Nat.sub_diag. cbn.
        destruct (nth a l (0, 0)%nat) as [i j] eqn:En. assert (Hin : In (i, j) l) by (rewrite <- En; apply nth_In; lia). apply I1 in Hin. cbn. lia.
      * rewrite !app_nth1 by lia. apply I2. lia.
    + intros i j. rewrite I1. split; intros (H1 & H2 & H3); splits; auto; try lia.
      destruct (Nat.eq_dec i n) as [->|N]; [lra|lia].
    + auto.
  - exists l. splits; auto.
    + intros i j. rewrite I1. split; intros (H1 & H2 & H3); splits; auto; lia.
    + intros -> u s Hs Hl. apply I1. splits; auto; try lia. apply Rabs_pos_lt. destruct Hs as [Hs|(? & ? & ?)]; lra.
Qed.

(* ------------------------------------------------------------------ *)
(** * calc_point between calc_basis and get_basis *)

(** calc_point computes the functions of its own span but keeps the span of the last
    calc_basis: get_basis then reads the functions of the one at the place of the
    functions of the other *)
Lemma interleaved p uu b u1 u2 fuel ndim cc s1 s2 : sorted uu -> clamped p uu -> spline_ok p uu b -> (length uu <= fuel)%nat ->
  knot uu 0 <= u1 <= knot uu (length uu - 1) -> knot uu 0 <= u2 <= knot uu (length uu - 1) ->
  mat (length uu - 1 - p) ndim (b_pp b) -> length cc = ndim ->
  let span := in_span (knot uu) (knot uu (length uu - 1)) in
  (S s1 < length uu)%nat -> (S s2 < length uu)%nat -> span u1 s1 -> span u2 s2 ->
  exists b1 b2 cc', calc_basis fuel b u1 = Ok b1 /\ calc_point fuel b1 cc u2 false = Ok (b2, cc') /\
    forall r, (r <= p)%nat -> get_basis b2 (s1 - p + r) = Ok (tri (knot uu) u2 s2 p r).
Proof.
  intros Hs Hc Hb Hf Hu1 Hu2 Hm Hcc span L1 L2 I1 I2. destruct (sorted_range p uu b Hs Hb) as [Emin Emax].
  pose proof Hb as (B1 & B2 & B3 & B4 & B5 & B6 & B7 & B8 & B9 & B10).
  destruct (C28_span p uu u1 fuel Hs Hc Hf Hu1) as (s & Es & S1 & S2 & S3). pose proof (S3 s1 L1 I1); subst s.
  destruct (C28_span p uu u2 fuel Hs Hc Hf Hu2) as (s & Es2 & S4 & S5 & S6). pose proof (S6 s2 L2 I2); subst s.
  destruct (basis_funs_ok p uu u1 s1 (b_ndu b) (b_left b) (b_right b) ltac:(lia) ltac:(lia) B3 B4 B5) as (n' & l' & r' & Eb & M' & L' & R' & _ & _).
  destruct (basis_funs_ok p uu u2 s2 n' l' r' ltac:(lia) ltac:(lia) M' L' R') as (n2 & l2 & r2 & Eb2 & M2 & _ & _ & T1 & _).
  set (b1 := with_span b s1 (n', l', r')). set (b2 := with_span b1 s1 (n2, l2, r2)).
  assert (E1 : calc_basis fuel b u1 = Ok b1).
  { unfold calc_basis. rewrite B1, B2, Emin, Emax. destruct (Rltb_spec u1 (knot uu 0)); [lra|]. destruct (Rltb_spec (knot uu (length uu - 1)) u1); [lra|].
    cbn [orb]. rewrite Es. cbn [bind ended]. rewrite Eb. reflexivity. }
  pose proof Hm as [Hm1 Hm2]. set (nb := (length uu - 1 - p)%nat) in *.
  assert (Z0 : length (map (fun _ : R => 0) cc) = ndim) by now rewrite map_length.
  assert (E2 : exists cc', calc_point fuel b1 cc u2 false = Ok (b2, cc')).
  { unfold calc_point, num_basis, usub, b1, with_span. cbn [b_p b_uu b_pp b_ndu b_left b_right b_span]. rewrite B1, B2.
    destruct (Nat.leb_spec 1 (length uu)); [|lia]. cbn [bind]. destruct (Nat.leb_spec p (length uu - 1)); [|lia]. cbn [bind]. fold nb.
    rewrite Hm1, Nat.eqb_refl. cbn [negb]. rewrite (vget_ok _ _ []) by lia. cbn [bind]. cbv zeta. rewrite Hm2 by lia. rewrite Hcc, Nat.eqb_refl. cbn [negb].
    rewrite Es2. cbn [bind ended]. rewrite Eb2. cbn [bind b_p b_uu b_umin b_umax b_pp b_ndu b_left b_right b_span].
    match goal with |- context [for_range 0 (p + 1) ?F ?C] => destruct (sum_points nb ndim (b_pp b) (fun r => g2 n2 r p) (s2 - p) (p + 1) C Hm ltac:(lia) Z0 F) as (cc' & E & _ & _) end.
    - intros i c Hi. destruct (Nat.leb_spec p s2); [|lia]. cbn [bind]. rewrite (get2_ok (p + 1) (p + 1)) by (auto; lia). reflexivity.
    - exists cc'. rewrite E. cbn [bind]. unfold b2, b1, with_span. cbn [b_p b_uu b_umin b_umax b_pp]. rewrite B1, B2. reflexivity. }
  destruct E2 as (cc' & E2). exists b1, b2, cc'. splits; auto.
  intros r Hr. unfold get_basis, b2, b1, with_span. cbn [b_span b_p b_ndu]. rewrite B1.
  destruct (Nat.leb_spec s1 (s1 - p + r + p)); [|lia]. destruct (Nat.leb_spec (s1 - p + r) s1); [|lia]. cbn [andb].
  unfold usub. destruct (Nat.leb_spec s1 (s1 - p + r + p)); [|lia]. cbn [bind]. rewrite (get2_ok (p + 1) (p + 1)) by (auto; lia).
  replace (s1 - p + r + p - s1)%nat with r by lia. rewrite T1 by lia. reflexivity.
Qed.

(** C28: get_basis gives the values of the last calculated parameter only if no point
    was computed in between: calc_point overwrites the functions but not the span. The
    value is then that of neither parameter. calc_curve_derivs does the same to
    get_basis_deriv. *)
Theorem C28_interleaved_refuted : exists uu b u1 u2 b1 b2 cc cc' y,
  sorted uu /\ clamped 1 uu /\ spline_ok 1 uu b /\ knot uu 0 <= u1 <= knot uu (length uu - 1) /\ knot uu 0 <= u2 <= knot uu (length uu - 1) /\
  calc_basis (length uu) b u1 = Ok b1 /\ calc_point (length uu) b1 cc u2 false = Ok (b2, cc') /\ get_basis b2 0 = Ok y /\
  let N := fun u => cox (knot uu) (knot uu (length uu - 1)) u 1 0 in y <> N u1 /\ y <> N u2.
Proof.
  set (uu := [0; 0; 1; 2; 2]).
  assert (Hs : sorted uu) by (apply sorted_adjacent; intros i H; cbn [uu length] in H; unfold knot; do 4 (destruct i as [|i]; [cbn; lra|]); lia).
  assert (Hc : clamped 1 uu) by (unfold clamped, knot; cbn; splits; try lra; lia).
  pose proof (C28_new 1 uu) as Hn. destruct (bspline_new 1 uu) as [b0|e|] eqn:En; [|cbn in Hn; lia|contradiction].
  set (b := mkB (b_p b0) (b_uu b0) (b_umin b0) (b_umax b0) [[0]; [0]; [0]] (b_ndu b0) (b_left b0) (b_right b0) (b_span b0)).
  assert (Hb : spline_ok 1 uu b) by (unfold spline_ok, b in *; cbn [b_p b_uu b_ndu b_left b_right b_umin b_umax]; tauto).
  assert (R1 : knot uu 0 <= 1/2 <= knot uu (length uu - 1)) by (unfold knot; cbn; lra).
  assert (R2 : knot uu 0 <= 5/4 <= knot uu (length uu - 1)) by (unfold knot; cbn; lra).
  assert (I1 : in_span (knot uu) (knot uu (length uu - 1)) (1/2) 1) by (left; unfold knot; cbn; lra).
  assert (I2 : in_span (knot uu) (knot uu (length uu - 1)) (5/4) 2) by (left; unfold knot; cbn; lra).
  assert (Hm : mat (length uu - 1 - 1) 1 (b_pp b)) by (split; [reflexivity|]; intros i Hi; cbn in Hi; do 3 (destruct i as [|i]; [reflexivity|]); lia).
  destruct (interleaved 1 uu b (1/2) (5/4) (length uu) 1 [0] 1 2 Hs Hc Hb (le_n _) R1 R2 Hm eq_refl ltac:(cbn; lia) ltac:(cbn; lia) I1 I2) as (b1 & b2 & cc' & E1 & E2 & G).
  exists uu, b, (1/2), (5/4), b1, b2, [0], cc', (tri (knot uu) (5/4) 2 1 0).
  refine (conj Hs (conj Hc (conj Hb (conj R1 (conj R2 (conj E1 (conj E2 (conj _ _)))))))).
  - exact (G 0%nat ltac:(lia)).
  - assert (Q : forall v s', in_span (knot uu) (knot uu (length uu - 1)) v s' -> knot uu 0 <= v <= knot uu (length uu - 1) -> (S s' < length uu)%nat ->
      forall i, (i + 1 + 1 < length uu)%nat -> (i + 1 < s' \/ s' < i)%nat -> cox (knot uu) (knot uu (length uu - 1)) v 1 i = 0).
    { intros v s' Hv Hr Hl i Hi H. destruct (C28_span 1 uu v (length uu) Hs Hc (le_n _) Hr) as (s0 & _ & S1 & S2 & S3).
      rewrite (S3 s' Hl Hv) in H. apply (cox_zero uu 1 v s0 ltac:(lia) ltac:(lia) S3); auto. }
    intros N. split.
    + unfold N. destruct (C28_span 1 uu (1/2) (length uu) Hs Hc (le_n _) R1) as (s0 & _ & S1 & S2 & S3).
      pose proof (S3 1%nat ltac:(cbn; lia) I1); subst s0.
      pose proof (cox_tri uu 1 (1/2) 1 Hs ltac:(lia) ltac:(cbn; lia) I1 S3 1 ltac:(lia) 0 ltac:(lia)) as T. cbn [Nat.sub Nat.add] in T. rewrite T.
      unfold tri, diff, rgt, lft, knot, uu. cbn. lra.
    + unfold N. rewrite (Q (5/4) 2%nat I2 R2) by (cbn; lia). unfold tri, diff, rgt, lft, knot, uu. cbn. lra.
Qed.

(* ------------------------------------------------------------------ *)
(** * The hypotheses can be met *)

(** a quadratic on two spans, with the points (0), (1), (3), (0) *)
Example C108_example : let uu := [0; 0; 0; 1; 2; 2; 2] in
  sorted uu /\ clamped 2 uu /\ knot uu 0 <= 1.5 <= knot uu (length uu - 1) /\
  exists x x', dspline_new 2 uu = Ok x /\ d_set_control_points x [[0]; [1]; [3]; [0]] 1 = Ok x' /\ dspline_ok 2 uu x' /\
    mat (length uu - 1 - 2) 1 (b_pp (d_b x')) /\ curves_ok 2 (length uu - 1 - 2) 1 x'.
Proof.
  intros uu. destruct C28_example as (H1 & H2 & _). splits; auto; try (unfold knot; cbn; lra).
  pose proof (C108_new 2 uu) as H. destruct (dspline_new 2 uu) as [x|e|] eqn:E.
  - destruct H as ((Hb & Md & Ma) & Hcc & Hpd). pose proof Hb as (B1 & B2 & B3). exists x. eexists. splits; [reflexivity|..].
    + unfold d_set_control_points, set_control_points, num_basis. rewrite B1, B2. cbn. reflexivity.
    + unfold dspline_ok. cbn [d_b d_ders d_a]. splits; auto. unfold spline_ok in *. cbn [b_p b_uu b_ndu b_left b_right b_umin b_umax]. tauto.
    + cbn. split; [reflexivity|]. intros i Hi. do 4 (destruct i as [|i]; [reflexivity|]). lia.
    + unfold curves_ok. cbn [d_cc d_pp]. rewrite Hcc, Hpd. cbn. split; left; lia.
  - cbn in H. lia.
  - contradiction.
Qed.

Print Assumptions C108_basis.
Print Assumptions C108_curve.
Print Assumptions C108_unique.
Print Assumptions C108_methods_agree.
Print Assumptions C108_redimension_refuted.
