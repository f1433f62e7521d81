(** Proof support for C87: identities of Legendre polynomials and quadrature on the zeros of orthogonal polynomials. *)
From Coquelicot Require Import Coquelicot.
From Verif Require Import Base RBase RSum Poly Legendre_Model.
From Coq Require Import Reals Lra Lia.
Local Open Scope R_scope.

Notation P := legendre_pn.

(** ** the recurrence *)
Definition bonnet (x : R) : R * R -> nat -> R * R := fun '(p_prev, p_curr) k =>
  let kf := INR k in let p_next := ((2 * kf + 1) * x * p_curr - kf * p_prev) / (kf + 1) in (p_curr, p_next).
Lemma loop_S x k : snd (fold_left (bonnet x) (seq 1 k) (1, x)) = P (S k) x.
Proof. destruct k; [reflexivity|]. unfold legendre_pn. replace (S (S k) - 1)%nat with (S k) by lia. reflexivity. Qed.
Lemma loop_fst x k : fst (fold_left (bonnet x) (seq 1 k) (1, x)) = P k x.
Proof.
  destruct k as [|k]; [reflexivity|]. rewrite seq_S, fold_left_app. cbn [fold_left]. rewrite <- loop_S.
  destruct (fold_left (bonnet x) (seq 1 k) (1, x)); reflexivity.
Qed.
Lemma P0 x : P 0 x = 1. Proof. reflexivity. Qed.
Lemma P1 x : P 1 x = x. Proof. reflexivity. Qed.
Lemma Prec n x : (INR n + 2) * P (S (S n)) x = (2 * INR n + 3) * x * P (S n) x - (INR n + 1) * P n x.
Proof.
  rewrite <- (loop_S x (S n)), seq_S, fold_left_app. cbn [fold_left]. replace (1 + n)%nat with (S n) by lia.
  destruct (fold_left (bonnet x) (seq 1 n) (1, x)) as [p q] eqn:E. assert (F1 := loop_fst x n). assert (F2 := loop_S x n). rewrite E in F1, F2. cbn [fst snd] in F1, F2. subst p q.
  unfold bonnet. cbn [snd]. rewrite S_INR. assert (0 <= INR n) by apply pos_INR. field. lra.
Qed.

Ltac npos n := let H := fresh in assert (H : 0 <= INR n) by apply pos_INR.

Lemma Ppoly n : is_poly (S n) (P n).
Proof.
  cut (is_poly (S n) (P n) /\ is_poly (S (S n)) (P (S n))); [tauto|]. induction n as [|n [IH1 IH2]].
  - split; [exists [1]|exists [0; 1]]; (split; [cbn; lia|]); intros x; cbn; ring.
  - split; auto. npos n.
    apply is_poly_ext with (fun x => (2 * INR n + 3) / (INR n + 2) * (x * P (S n) x) + (- (INR n + 1) / (INR n + 2)) * P n x).
    + apply is_poly_plus; apply is_poly_scal; [now apply is_poly_X|]. eapply is_poly_le; eauto.
    + intros x. apply Rmult_eq_reg_l with (INR n + 2); [|lra]. rewrite Prec. field. lra.
Qed.

Global Opaque legendre_pn.

(** leading coefficient *)
Lemma Ptop n : exists l r, l <> 0 /\ is_poly n r /\ forall x, P n x = l * x ^ n + r x.
Proof.
  cut ((exists l r, l <> 0 /\ is_poly n r /\ forall x, P n x = l * x ^ n + r x) /\ (exists l r, l <> 0 /\ is_poly (S n) r /\ forall x, P (S n) x = l * x ^ (S n) + r x)); [tauto|].
  induction n as [|n [_ IH2]].
  - split; exists 1, (fun _ => 0); (split; [lra|]); (split; [apply is_poly_zero|]); intros x; rewrite ?P0, ?P1; cbn; ring.
  - split; auto. destruct IH2 as (l & r & Hl & Hr & E). npos n.
    exists ((2 * INR n + 3) / (INR n + 2) * l), (fun x => (2 * INR n + 3) / (INR n + 2) * (x * r x) + (- (INR n + 1) / (INR n + 2)) * P n x). splits.
    + apply Rmult_integral_contrapositive_currified; auto. apply Rgt_not_eq, Rdiv_lt_0_compat; lra.
    + apply is_poly_plus; apply is_poly_scal; [now apply is_poly_X|]. eapply is_poly_le; [apply Ppoly|lia].
    + intros x. apply Rmult_eq_reg_l with (INR n + 2); [|lra]. rewrite Prec, E. cbn [pow]. field. lra.
Qed.

Lemma poly_top n f : is_poly (S n) f -> exists b r, is_poly n r /\ forall x, f x = b * x ^ n + r x.
Proof.
  revert f. induction n as [|n IH]; intros f (p & L & H).
  - destruct p as [|c [|]]; cbn in L; try lia; [exists 0, (fun _ => 0)|exists c, (fun _ => 0)]; (split; [apply is_poly_zero|]); intros x; rewrite H; cbn; ring.
  - destruct p as [|c q]; cbn in L.
    + exists 0, (fun _ => 0). split; [apply is_poly_zero|]. intros x. rewrite H. cbn. ring.
    + destruct (IH (peval q)) as (b & r & Hr & E). { exists q. split; [lia|auto]. }
      exists b, (fun x => c + x * r x). split.
      * apply is_poly_plus; [apply is_poly_const; lia|now apply is_poly_X].
      * intros x. rewrite H. cbn [peval pow]. rewrite E. ring.
Qed.

(** every polynomial of degree below n is a combination of P_0 ... P_(n-1) *)
Lemma Pspan n q : is_poly n q -> exists c, forall x, q x = sumn n (fun j => c j * P j x).
Proof.
  revert q. induction n as [|n IH]; intros q Hq.
  - exists (fun _ => 0). destruct Hq as (p & L & H). destruct p; cbn in L; [|lia]. intros x. now rewrite H.
  - destruct (poly_top n q Hq) as (b & r & Hr & E). destruct (Ptop n) as (l & s & Hl & Hs & F).
    destruct (IH (fun x => r x - b / l * s x)) as (c & Hc). { apply is_poly_minus; auto. now apply is_poly_scal. }
    exists (fun j => if (j =? n)%nat then b / l else c j). intros x. cbn [sumn]. rewrite Nat.eqb_refl.
    rewrite (sumn_ext n _ (fun j => c j * P j x)). 2:{ intros j Hj. now rewrite (proj2 (Nat.eqb_neq j n)) by lia. }
    rewrite <- Hc, E, F. field. auto.
Qed.

(** ** derivatives *)
Definition D (n : nat) : R -> R := Derive (P n).
Definition D2 (n : nat) : R -> R := Derive (D n).

Lemma poly_diff n f : is_poly n f -> (forall x, is_derive f x (Derive f x)) /\ is_poly n (Derive f) /\ is_poly (n - 1) (Derive f).
Proof.
  intros H. destruct n as [|n].
  - destruct H as (p & L & H). destruct p; cbn in L; [|lia].
    assert (K : forall x, is_derive f x 0).
    { intros x. apply is_derive_ext with (fun _ => 0); [intros; symmetry; apply H|]. apply (is_derive_const (K := R_AbsRing) (V := R_NormedModule)). }
    assert (E : forall x, Derive f x = 0) by (intros x; now apply is_derive_unique). splits.
    + intros x. rewrite E. auto.
    + exists []. split; [cbn; lia|]. intros x. now rewrite E.
    + exists []. split; [cbn; lia|]. intros x. now rewrite E.
  - destruct (is_poly_derive n f H) as (f' & Pf & Df). assert (E : forall x, Derive f x = f' x) by (intros x; now apply is_derive_unique). splits.
    + intros x. rewrite E. auto.
    + apply is_poly_ext with f'; [|intros; now rewrite E]. eapply is_poly_le; eauto.
    + replace (S n - 1)%nat with n by lia. apply is_poly_ext with f'; auto.
Qed.
Lemma dP n x : is_derive (P n) x (D n x). Proof. apply (poly_diff (S n) (P n) (Ppoly n)). Qed.
Lemma Dpoly n : is_poly (S n) (D n). Proof. apply (poly_diff (S n) (P n) (Ppoly n)). Qed.
Lemma Dpoly' n : is_poly n (D n). Proof. assert (H := proj2 (proj2 (poly_diff (S n) (P n) (Ppoly n)))). replace (S n - 1)%nat with n in H by lia. exact H. Qed.
Lemma dD n x : is_derive (D n) x (D2 n x). Proof. apply (poly_diff (S n) (D n) (Dpoly n)). Qed.

Lemma D0 x : D 0 x = 0.
Proof. apply is_derive_unique. apply is_derive_ext with (fun _ => 1); [reflexivity|]. apply (is_derive_const (K := R_AbsRing) (V := R_NormedModule)). Qed.
Lemma D1 x : D 1 x = 1.
Proof. apply is_derive_unique. apply is_derive_ext with (fun t : R => t); [reflexivity|]. apply (is_derive_id (K := R_AbsRing)). Qed.

(** two everywhere equal functions have equal derivatives *)
Lemma deriv_eq (f g : R -> R) x a b : (forall t, f t = g t) -> is_derive f x a -> is_derive g x b -> a = b.
Proof. intros E F G. rewrite <- (is_derive_unique _ _ _ F), <- (is_derive_unique _ _ _ G). now apply Derive_ext. Qed.

Lemma Drec n x : (INR n + 2) * D (S (S n)) x = (2 * INR n + 3) * (P (S n) x + x * D (S n) x) - (INR n + 1) * D n x.
Proof.
  apply (deriv_eq (fun t => (INR n + 2) * P (S (S n)) t) (fun t => (2 * INR n + 3) * t * P (S n) t - (INR n + 1) * P n t) x).
  - intros t. apply Prec.
  - assert (H := dP (S (S n)) x). auto_derive; [now exists (D (S (S n)) x)|]. rewrite (is_derive_unique (fun t : R => P (S (S n)) t) x _ H). ring.
  - assert (H := dP (S n) x). assert (K := dP n x). auto_derive; [splits; auto; eexists; eauto|].
    rewrite (is_derive_unique (fun t : R => P (S n) t) x _ H), (is_derive_unique (fun t : R => P n t) x _ K). ring.
Qed.

Lemma BC n x : D (S n) x = x * D n x + (INR n + 1) * P n x /\ D n x = x * D (S n) x - (INR n + 1) * P (S n) x.
Proof.
  induction n as [|n [B C]]; [rewrite D0, D1, P0, P1; cbn; split; ring|]. npos n. rewrite S_INR.
  assert (A : (x * x - 1) * D (S n) x = (INR n + 1) * (x * P (S n) x - P n x)).
  { replace ((x * x - 1) * D (S n) x) with (x * (x * D (S n) x) - D (S n) x) by ring. rewrite B at 2. rewrite C. ring. }
  assert (B' : D (S (S n)) x = x * D (S n) x + (INR n + 1 + 1) * P (S n) x).
  { apply Rmult_eq_reg_l with (INR n + 2); [|lra]. rewrite Drec, C. ring. }
  split; auto. rewrite B'. assert (Q := Prec n x).
  replace (x * (x * D (S n) x + (INR n + 1 + 1) * P (S n) x) - (INR n + 1 + 1) * P (S (S n)) x)
    with ((x * x - 1) * D (S n) x + D (S n) x + (INR n + 2) * x * P (S n) x - (INR n + 2) * P (S (S n)) x) by ring.
  rewrite A, Q. ring.
Qed.
Lemma dB n x : D (S n) x = x * D n x + (INR n + 1) * P n x. Proof. apply BC. Qed.
Lemma dC n x : D n x = x * D (S n) x - (INR n + 1) * P (S n) x. Proof. apply BC. Qed.
Lemma dA n x : (x * x - 1) * D (S n) x = (INR n + 1) * (x * P (S n) x - P n x).
Proof.
  replace ((x * x - 1) * D (S n) x) with (x * (x * D (S n) x) - D (S n) x) by ring. rewrite (dB n x) at 2. rewrite (dC n x). ring.
Qed.

(** Legendre's equation *)
Lemma ode n x : (1 - x * x) * D2 n x = 2 * x * D n x - INR n * (INR n + 1) * P n x.
Proof.
  destruct n as [|n].
  - replace (D2 0 x) with 0. 2:{ symmetry. apply is_derive_unique. apply is_derive_ext with (fun _ => 0); [intros; now rewrite D0|]. apply (is_derive_const (K := R_AbsRing) (V := R_NormedModule)). }
    rewrite D0. cbn. ring.
  - assert (E : 2 * x * D (S n) x + (x * x - 1) * D2 (S n) x = (INR n + 1) * (P (S n) x + x * D (S n) x - D n x)).
    { apply (deriv_eq (fun t => (t * t - 1) * D (S n) t) (fun t => (INR n + 1) * (t * P (S n) t - P n t)) x).
      - intros t. apply dA.
      - assert (H := dD (S n) x). auto_derive; [splits; auto; eexists; eauto|]. rewrite (is_derive_unique (fun t : R => D (S n) t) x _ H). ring.
      - assert (H := dP (S n) x). assert (K := dP n x). auto_derive; [splits; auto; eexists; eauto|].
        rewrite (is_derive_unique (fun t : R => P (S n) t) x _ H), (is_derive_unique (fun t : R => P n t) x _ K). ring. }
    rewrite (dC n x) in E. rewrite S_INR.
    replace ((1 - x * x) * D2 (S n) x) with (2 * x * D (S n) x - (2 * x * D (S n) x + (x * x - 1) * D2 (S n) x)) by ring. rewrite E. ring.
Qed.
Lemma D2rec n x : D2 (S n) x = (INR n + 2) * D n x + x * D2 n x.
Proof.
  apply (deriv_eq (D (S n)) (fun t => t * D n t + (INR n + 1) * P n t) x); [apply dB|apply dD|].
  assert (H := dD n x). assert (K := dP n x). auto_derive; [splits; auto; eexists; eauto|].
  rewrite (is_derive_unique (fun t : R => D n t) x _ H), (is_derive_unique (fun t : R => P n t) x _ K). ring.
Qed.

(** values at the ends *)
Lemma P_at_1 n : P n 1 = 1.
Proof.
  cut (P n 1 = 1 /\ P (S n) 1 = 1); [tauto|]. induction n as [|n [I1 I2]]; [split; reflexivity|]. split; auto. npos n.
  apply Rmult_eq_reg_l with (INR n + 2); [|lra]. rewrite Prec, I1, I2. ring.
Qed.
Lemma P_at_m1 n : P n (-1) = (-1) ^ n.
Proof.
  cut (P n (-1) = (-1) ^ n /\ P (S n) (-1) = (-1) ^ (S n)); [tauto|]. induction n as [|n [I1 I2]]; [rewrite P0, P1; split; cbn; ring|]. split; auto. npos n.
  apply Rmult_eq_reg_l with (INR n + 2); [|lra]. rewrite Prec, I1, I2. cbn [pow]. ring.
Qed.
Lemma D_at_1 n : D n 1 = INR n * (INR n + 1) / 2.
Proof. induction n as [|n IH]; [rewrite D0; cbn; field|]. rewrite dB, IH, P_at_1, S_INR. field. Qed.
Lemma D_at_m1 n : D n (-1) = - (-1) ^ n * (INR n * (INR n + 1) / 2).
Proof. induction n as [|n IH]; [rewrite D0; cbn; field|]. rewrite dB, IH, P_at_m1, S_INR. cbn [pow]. field. Qed.
Lemma D2_at_1 n : D2 n 1 = (INR n - 1) * INR n * (INR n + 1) * (INR n + 2) / 8.
Proof.
  induction n as [|n IH].
  - replace (D2 0 1) with 0. 2:{ symmetry. apply is_derive_unique. apply is_derive_ext with (fun _ => 0); [intros; now rewrite D0|]. apply (is_derive_const (K := R_AbsRing) (V := R_NormedModule)). }
    cbn. field.
  - rewrite D2rec, IH, D_at_1, S_INR. field.
Qed.
Lemma D2_at_m1 n : D2 n (-1) = (-1) ^ n * ((INR n - 1) * INR n * (INR n + 1) * (INR n + 2) / 8).
Proof.
  induction n as [|n IH].
  - replace (D2 0 (-1)) with 0. 2:{ symmetry. apply is_derive_unique. apply is_derive_ext with (fun _ => 0); [intros; now rewrite D0|]. apply (is_derive_const (K := R_AbsRing) (V := R_NormedModule)). }
    cbn. field.
  - rewrite D2rec, IH, D_at_m1, S_INR. cbn [pow]. field.
Qed.
Lemma pow_m1 n : (-1) ^ n = if Nat.even n then 1 else -1.
Proof.
  cut ((-1) ^ n = (if Nat.even n then 1 else -1) /\ (-1) ^ (S n) = if Nat.even (S n) then 1 else -1); [tauto|].
  induction n as [|n [I1 I2]]; [split; cbn; ring|]. split; auto. change ((-1) ^ S (S n)) with (-1 * (-1 * (-1) ^ n)). rewrite I1. change (Nat.even (S (S n))) with (Nat.even n). destruct (Nat.even n); ring.
Qed.

(** ** integrals over [-1,1] *)
Definition I (f : R -> R) (v : R) : Prop := is_RInt f (-1) 1 v.

Lemma poly_cont n f x : is_poly n f -> continuous f x.
Proof. intros H. apply (ex_derive_continuous (K := R_AbsRing) (V := R_NormedModule)). exists (Derive f x). apply (poly_diff n f H). Qed.
Lemma I_deriv n (F f : R -> R) : is_poly n f -> (forall x, is_derive F x (f x)) -> I f (F 1 - F (-1)).
Proof.
  intros Hf HF. unfold I. apply (is_RInt_derive (V := R_CompleteNormedModule) F f (-1) 1); [intros x _; apply HF|]. intros x _. eapply poly_cont; eauto.
Qed.
Lemma I_ext (f g : R -> R) v : I f v -> (forall x, f x = g x) -> I g v.
Proof. intros H E. eapply is_RInt_ext; [|exact H]. intros x _. apply E. Qed.
Lemma I_plus (f g : R -> R) u v : I f u -> I g v -> I (fun x => f x + g x) (u + v).
Proof. intros H K. apply (is_RInt_plus (V := R_NormedModule) f g (-1) 1 u v); auto. Qed.
Lemma I_scal (c : R) (f : R -> R) v : I f v -> I (fun x => c * f x) (c * v).
Proof. intros H. apply (is_RInt_scal (V := R_NormedModule) f (-1) 1 c v). auto. Qed.
Lemma I_zero : I (fun _ => 0) 0.
Proof. unfold I. assert (H := is_RInt_const (V := R_NormedModule) (-1) 1 0). unfold scal in H. cbn in H. unfold mult in H. cbn in H. rewrite Rmult_0_r in H. exact H. Qed.
Lemma I_sum n (F : nat -> R -> R) v : (forall j, (j < n)%nat -> I (F j) (v j)) -> I (fun x => sumn n (fun j => F j x)) (sumn n v).
Proof. induction n as [|n IH]; intros H; cbn [sumn]; [apply I_zero|]. apply I_plus; auto. Qed.
Lemma I_unique f u v : I f u -> I f v -> u = v.
Proof. intros H K. rewrite <- (is_RInt_unique (V := R_CompleteNormedModule) f (-1) 1 u H). exact (is_RInt_unique (V := R_CompleteNormedModule) f (-1) 1 v K). Qed.

(** every polynomial has an antiderivative and an integral *)
Lemma poly_anti n f : is_poly n f -> exists F, is_poly (S n) F /\ forall x, is_derive F x (f x).
Proof.
  revert f. induction n as [|n IH]; intros f Hf.
  - exists (fun _ => 0). split; [apply is_poly_zero|]. intros x. destruct Hf as (p & L & H). destruct p; cbn in L; [|lia]. rewrite H. cbn. apply (is_derive_const (K := R_AbsRing) (V := R_NormedModule)).
  - destruct (poly_top n f Hf) as (b & r & Hr & E). destruct (IH r Hr) as (F & HF & DF). npos n.
    exists (fun x => b / (INR n + 1) * x ^ (S n) + F x). split.
    + apply is_poly_plus; [|eapply is_poly_le; eauto]. apply is_poly_scal. clear. induction (S n) as [|m IHm]; [exists [1]; split; [cbn; lia|intros; cbn; ring]|].
      apply is_poly_ext with (fun x => x * x ^ m); [|reflexivity]. now apply is_poly_X.
    + intros x. rewrite E. assert (K := DF x). auto_derive; [splits; auto; eexists; eauto|]. rewrite (is_derive_unique (fun t : R => F t) x _ K).
      destruct n; [cbn; field|]. field. lra.
Qed.
Lemma poly_I n f : is_poly n f -> exists v, I f v.
Proof. intros H. destruct (poly_anti n f H) as (F & _ & DF). exists (F 1 - F (-1)). eapply I_deriv; eauto. Qed.

(** products of polynomials *)
Lemma is_poly_mul n m f g : is_poly n f -> is_poly (S m) g -> is_poly (n + m) (fun x => f x * g x).
Proof.
  intros (p & L & H) Hg. apply is_poly_ext with (fun x => peval p x * g x); [|intros; now rewrite H]. clear f H.
  revert n L. induction p as [|c p IH]; intros n L; cbn in L.
  - apply is_poly_ext with (fun _ => 0); [apply is_poly_zero|]. intros; cbn; ring.
  - destruct n as [|n]; [lia|]. apply is_poly_ext with (fun x => c * g x + x * (peval p x * g x)); [|intros; cbn; ring].
    apply is_poly_plus; [apply is_poly_scal; eapply is_poly_le; eauto; lia|]. apply (is_poly_X (n + m)). apply IH. lia.
Qed.

(** ** orthogonality *)
Lemma ortho_ne m n : m <> n -> I (fun x => P m x * P n x) 0.
Proof.
  intros N. pose (c := INR n * (INR n + 1) - INR m * (INR m + 1)).
  assert (C : c <> 0).
  { unfold c. replace (INR n * (INR n + 1) - INR m * (INR m + 1)) with ((INR n - INR m) * (INR n + INR m + 1)) by ring. npos n. npos m.
    apply Rmult_integral_contrapositive_currified; [|lra]. intros E. apply N, INR_eq. lra. }
  pose (F := fun x => (1 - x * x) * (D m x * P n x - P m x * D n x)).
  assert (HI : I (fun x => c * (P m x * P n x)) (F 1 - F (-1))).
  { apply (I_deriv (S m + n)); [apply is_poly_scal, is_poly_mul; apply Ppoly|]. intros x. unfold F.
    assert (H1 := dP m x). assert (H2 := dP n x). assert (H3 := dD m x). assert (H4 := dD n x).
    auto_derive; [splits; auto; eexists; eauto|].
    rewrite (is_derive_unique (fun t : R => P m t) x _ H1), (is_derive_unique (fun t : R => P n t) x _ H2), (is_derive_unique (fun t : R => D m t) x _ H3), (is_derive_unique (fun t : R => D n t) x _ H4).
    transitivity (-2 * x * (D m x * P n x - P m x * D n x) + ((1 - x * x) * D2 m x) * P n x - P m x * ((1 - x * x) * D2 n x)); [ring|].
    rewrite !ode. unfold c. ring. }
  apply I_scal with (c := / c) in HI. eapply I_ext in HI; [|intros x; instantiate (1 := fun x => P m x * P n x); cbv beta; field; auto].
  replace 0 with (/ c * (F 1 - F (-1))); auto. unfold F. ring.
Qed.
Lemma I_one : I (fun _ => 1) 2.
Proof. assert (H := I_deriv 1 (fun x => x) (fun _ => 1)). replace 2 with (1 - -1) by ring. apply H; [apply is_poly_const; lia|]. intros x. apply (is_derive_id (K := R_AbsRing)). Qed.
Lemma I_P n : I (P n) (if (n =? 0)%nat then 2 else 0).
Proof.
  destruct n as [|n]; [apply (I_ext (fun _ => 1)); [apply I_one|reflexivity]|]. cbn [Nat.eqb].
  apply (I_ext (fun x => P 0 x * P (S n) x)); [apply ortho_ne; lia|]. intros x. rewrite P0. ring.
Qed.
Lemma ortho_sq n : I (fun x => P n x * P n x) (2 / (2 * INR n + 1)).
Proof.
  induction n as [|n IH]; [cbn; replace (2 / (2 * 0 + 1)) with 2 by field; apply (I_ext (fun _ => 1)); [apply I_one|intros; rewrite P0; ring]|].
  (* integral of x P_n P_(n+1), in two ways *)
  npos n.
  assert (X : I (fun x => x * P n x * P (S n) x) ((INR n + 1) / (2 * INR n + 3) * (2 / (2 * INR n + 1)))).
  { assert (Z := ortho_ne (S (S n)) n ltac:(lia)).
    assert (Q := I_plus _ _ _ _ (I_scal ((INR n + 2) / (2 * INR n + 3)) _ _ Z) (I_scal ((INR n + 1) / (2 * INR n + 3)) _ _ IH)).
    eapply I_ext in Q; [replace ((INR n + 1) / (2 * INR n + 3) * (2 / (2 * INR n + 1))) with ((INR n + 2) / (2 * INR n + 3) * 0 + (INR n + 1) / (2 * INR n + 3) * (2 / (2 * INR n + 1))) by (field; lra); exact Q|].
    intros x. cbv beta. transitivity (((INR n + 2) * P (S (S n)) x + (INR n + 1) * P n x) * P n x / (2 * INR n + 3)); [field; lra|]. rewrite Prec. field. lra. }
  destruct n as [|n].
  - apply (I_ext (fun x => x * P 0 x * P 1 x)); [|intros x; rewrite P0, P1; ring]. cbn in X |- *. replace (2 / (2 * 1 + 1)) with ((0 + 1) / (2 * 0 + 3) * (2 / (2 * 0 + 1))) by field. exact X.
  - assert (Z := ortho_ne n (S (S n)) ltac:(lia)). rewrite !S_INR in *. npos n.
    assert (Q := I_plus _ _ _ _ (I_scal ((2 * INR n + 3) / (INR n + 2)) _ _ X) (I_scal (- (INR n + 1) / (INR n + 2)) _ _ Z)).
    eapply I_ext in Q.
    + replace (2 / (2 * (INR n + 1 + 1) + 1)) with ((2 * INR n + 3) / (INR n + 2) * ((INR n + 1 + 1) / (2 * (INR n + 1) + 3) * (2 / (2 * (INR n + 1) + 1))) + - (INR n + 1) / (INR n + 2) * 0) by (field; lra). exact Q.
    + intros x. cbv beta. transitivity (((2 * INR n + 3) * x * P (S n) x - (INR n + 1) * P n x) * P (S (S n)) x / (INR n + 2)); [field; lra|]. rewrite <- Prec. field. lra.
Qed.
Lemma ortho_low n q : is_poly n q -> I (fun x => q x * P n x) 0.
Proof.
  intros H. destruct (Pspan n q H) as (c & E). apply (I_ext (fun x => sumn n (fun j => c j * (P j x * P n x)))).
  - rewrite <- (sumn_zero n (fun j => c j * 0)) by (intros; ring). apply I_sum. intros j Hj. apply I_scal, ortho_ne. lia.
  - intros x. rewrite E, <- sumn_scal_r. apply sumn_ext. intros; ring.
Qed.

(** ** Christoffel-Darboux *)
Definition S_ (n : nat) (y x : R) : R := sumn n (fun j => (2 * INR j + 1) * P j y * P j x).
Lemma darboux m x y : (x - y) * S_ (S m) y x = (INR m + 1) * (P (S m) x * P m y - P m x * P (S m) y).
Proof.
  induction m as [|m IH]; [unfold S_; cbn [sumn]; rewrite !P0, !P1; cbn; ring|].
  unfold S_ in *. cbn [sumn] in *. rewrite !S_INR in *.
  transitivity ((x - y) * (sumn m (fun j => (2 * INR j + 1) * P j y * P j x) + (2 * INR m + 1) * P m y * P m x) + (x - y) * ((2 * (INR m + 1) + 1) * P (S m) y * P (S m) x)); [ring|].
  rewrite IH. transitivity (((INR m + 2) * P (S (S m)) x) * P (S m) y - P (S m) x * ((INR m + 2) * P (S (S m)) y)); [rewrite !Prec; ring|ring].
Qed.
Lemma S_int m y : I (S_ (S m) y) 2.
Proof.
  assert (H : I (fun x => sumn (S m) (fun j => (2 * INR j + 1) * P j y * P j x)) (sumn (S m) (fun j => (2 * INR j + 1) * P j y * (if (j =? 0)%nat then 2 else 0)))).
  { apply I_sum. intros j Hj. apply I_scal, I_P. }
  rewrite sumn_S_l, sumn_zero in H by (intros; cbn [Nat.eqb]; ring). cbn [Nat.eqb] in H. rewrite P0 in H. cbn in H.
  replace 2 with ((2 * 0 + 1) * 1 * 2 + 0) by ring. exact H.
Qed.
Lemma S_poly m y : is_poly (S m) (S_ (S m) y).
Proof. apply is_poly_sum. intros j Hj. apply is_poly_scal. eapply is_poly_le; [apply Ppoly|lia]. Qed.

(** ** cancelling and dividing *)
Lemma cancel n m a f g : is_poly n f -> is_poly m g -> (forall x, (x - a) * f x = (x - a) * g x) -> forall x, f x = g x.
Proof.
  intros Hf Hg E. apply (poly_agree (n + m) f g (fun i => a + 1 + INR i)).
  - eapply is_poly_le; eauto; lia.
  - eapply is_poly_le; eauto; lia.
  - intros i j _ _ H. apply INR_eq. lra.
  - intros i _. npos i. apply Rmult_eq_reg_l with (a + 1 + INR i - a); [apply E|lra].
Qed.
Lemma divide n f a : is_poly (S n) f -> f a = 0 -> exists g, is_poly n g /\ forall x, f x = (x - a) * g x.
Proof.
  intros (p & L & H) Z. exists (peval (pdiv p a)). split; [exists (pdiv p a); split; [rewrite pdiv_length; lia|reflexivity]|].
  intros x. rewrite H, (pdiv_spec p a x). rewrite H in Z. rewrite Z. ring.
Qed.
Fixpoint prodn (n : nat) (a : nat -> R) (x : R) : R := match n with O => 1 | S k => prodn k a x * (x - a k) end.
Lemma divide_all n m f a : is_poly (n + m) f -> (forall i j, (i < n)%nat -> (j < n)%nat -> a i = a j -> i = j) -> (forall k, (k < n)%nat -> f (a k) = 0) ->
  exists g, is_poly m g /\ forall x, f x = prodn n a x * g x.
Proof.
  revert f. induction n as [|n IH]; intros f Hf Ha Z.
  - exists f. split; auto. intros x. cbn. ring.
  - destruct (divide (n + m) f (a n) Hf) as (f1 & H1 & E1); [apply Z; lia|].
    destruct (IH f1 H1) as (g & Hg & E).
    + intros i j Hi Hj. apply Ha; lia.
    + intros k Hk. assert (Q := Z k ltac:(lia)). rewrite E1 in Q. apply Rmult_integral in Q. destruct Q as [Q|]; auto. exfalso. assert (k = n) by (apply Ha; try lia; lra). lia.
    + exists g. split; auto. intros x. rewrite E1, E. cbn. ring.
Qed.

(** ** quadrature on the zeros of [W] *)
Lemma quadrature n m (W : R -> R) (w : nat -> R -> R) (a om : nat -> R) :
  (0 < n)%nat -> is_poly (S n) W -> (forall i j, (i < n)%nat -> (j < n)%nat -> a i = a j -> i = j) ->
  (forall k, (k < n)%nat -> is_poly n (w k) /\ (forall x, W x = (x - a k) * w k x) /\ w k (a k) <> 0 /\ I (w k) (om k * w k (a k))) ->
  (forall q, is_poly m q -> I (fun x => q x * W x) 0) ->
  forall f, is_poly (n + m) f -> I f (sumn n (fun k => om k * f (a k))).
Proof.
  intros Hn HW Ha Hw Ho f Hf.
  assert (WZ : forall k, (k < n)%nat -> W (a k) = 0). { intros k Hk. destruct (Hw k Hk) as (_ & E & _). rewrite E. ring. }
  destruct (divide_all n 1 W a) as (c & Hc & EC); auto. { replace (n + 1)%nat with (S n) by lia. auto. }
  assert (CC : forall x, c x = c 0). { destruct Hc as (p & L & H). intros x. rewrite !H. destruct p as [|c0 [|]]; cbn in L |- *; try lia; lra. }
  assert (C0 : c 0 <> 0).
  { intros Z. destruct (Hw 0%nat Hn) as (H1 & H2 & H3 & _). apply H3. apply (cancel n 0 (a 0%nat) (w 0%nat) (fun _ => 0)); auto; [apply is_poly_zero|].
    intros x. rewrite <- H2, EC, CC, Z. ring. }
  pose (L := fun x => sumn n (fun k => f (a k) / w k (a k) * w k x)).
  assert (HL : is_poly n L) by (apply is_poly_sum; intros k Hk; apply is_poly_scal, Hw; auto).
  assert (KR : forall k i, (k < n)%nat -> (i < n)%nat -> i <> k -> w k (a i) = 0).
  { intros k i Hk Hi N. destruct (Hw k Hk) as (_ & E & _). assert (Q := WZ i Hi). rewrite E in Q. apply Rmult_integral in Q. destruct Q; auto. exfalso. apply N, Ha; auto. lra. }
  destruct (divide_all n m (fun x => f x - L x) a) as (g & Hg & EG); auto.
  - apply is_poly_minus; auto. eapply is_poly_le; eauto. lia.
  - intros i Hi. unfold L. rewrite (sumn_single _ _ i Hi).
    + destruct (Hw i Hi) as (_ & _ & Q & _). field. auto.
    + intros k Hk N. rewrite (KR k i) by auto. ring.
  - assert (IL : I L (sumn n (fun k => om k * f (a k)))).
    { unfold L. rewrite (sumn_ext n (fun k => om k * f (a k)) (fun k => f (a k) / w k (a k) * (om k * w k (a k)))).
      - apply I_sum. intros k Hk. apply I_scal. apply Hw; auto.
      - intros k Hk. destruct (Hw k Hk) as (_ & _ & Q & _). field. auto. }
    assert (IG : I (fun x => (/ c 0 * g x) * W x) 0) by (apply Ho; now apply is_poly_scal).
    assert (Q := I_plus _ _ _ _ IL IG). rewrite Rplus_0_r in Q. eapply I_ext; [exact Q|]. intros x. cbv beta.
    rewrite EC, (CC x). specialize (EG x). cbv beta in EG. transitivity (L x + prodn n a x * g x); [field; auto|]. rewrite <- EG. ring.
Qed.

(** quotient and derivative *)
Lemma quotient_slope n (w W : R -> R) a d : is_poly n w -> (forall x, W x = (x - a) * w x) -> is_derive W a d -> w a = d.
Proof.
  intros Hw E HD. apply (deriv_eq (fun x => (x - a) * w x) W a); [intros; now rewrite E| |auto].
  assert (K := proj1 (poly_diff n w Hw) a). auto_derive; [splits; auto; eexists; eauto|]. ring.
Qed.


(** the quotients of a polynomial by the linear factors of its zeros *)
Lemma quotients n W : is_poly (S n) W -> exists q : R -> R -> R, forall a, W a = 0 -> is_poly n (q a) /\ forall x, W x = (x - a) * q a x.
Proof.
  intros (p & L & H). exists (fun a => peval (pdiv p a)). intros a Z. split; [exists (pdiv p a); split; [rewrite pdiv_length; lia|reflexivity]|].
  intros x. rewrite H, (pdiv_spec p a x). rewrite H in Z. rewrite Z. ring.
Qed.

Lemma gauss n a : (0 < n)%nat -> (forall i j, (i < n)%nat -> (j < n)%nat -> a i = a j -> i = j) -> (forall k, (k < n)%nat -> P n (a k) = 0) ->
  forall f, is_poly (2 * n) f -> I f (sumn n (fun k => 2 / ((1 - a k * a k) * D n (a k) * D n (a k)) * f (a k))).
Proof.
  intros Hn Ha Z f Hf. destruct n as [|m]; [lia|]. npos m. destruct (quotients (S m) (P (S m)) (Ppoly (S m))) as (q & Q).
  apply (quadrature (S m) (S m) (P (S m)) (fun k => q (a k))); auto.
  - apply Ppoly.
  - intros k Hk. destruct (Q (a k) (Z k Hk)) as [Q1 Q2]. specialize (Z k Hk).
    assert (SL := quotient_slope _ _ _ _ _ Q1 Q2 (dP (S m) (a k))).
    assert (ES : forall x, S_ (S m) (a k) x = (INR m + 1) * P m (a k) * q (a k) x).
    { apply (cancel (S m) (S m) (a k)); [apply S_poly|now apply is_poly_scal|]. intros x. rewrite darboux, Z, Q2. ring. }
    destruct (poly_I _ _ Q1) as (v & V).
    assert (EV : (INR m + 1) * P m (a k) * v = 2).
    { apply (I_unique (S_ (S m) (a k))); [|apply S_int]. apply (I_ext (fun x => (INR m + 1) * P m (a k) * q (a k) x)); [now apply I_scal|]. intros; now rewrite ES. }
    assert (AA := dA m (a k)). rewrite Z in AA.
    assert (NP : P m (a k) <> 0) by (intros E; rewrite E in EV; lra).
    assert (N1 : D (S m) (a k) <> 0). { intros E. rewrite E in AA. assert ((INR m + 1) * P m (a k) = 0) by lra. apply Rmult_integral in H0. destruct H0; lra. }
    assert (N2 : 1 - a k * a k <> 0). { intros E. assert (a k * a k - 1 = 0) by lra. rewrite H0 in AA. assert ((INR m + 1) * P m (a k) = 0) by lra. apply Rmult_integral in H1. destruct H1; lra. }
    splits; auto; [congruence|]. rewrite SL.
    replace (2 / ((1 - a k * a k) * D (S m) (a k) * D (S m) (a k)) * D (S m) (a k)) with v; auto.
    assert (EP : (1 - a k * a k) * D (S m) (a k) = (INR m + 1) * P m (a k)) by lra.
    replace (2 / ((1 - a k * a k) * D (S m) (a k) * D (S m) (a k)) * D (S m) (a k)) with (2 / ((1 - a k * a k) * D (S m) (a k))) by (field; auto).
    rewrite EP, <- EV. field. split; auto. lra.
  - intros g Hg. now apply ortho_low.
  - replace (S m + S m)%nat with (2 * S m)%nat by lia. auto.
Qed.

(** W = (1 - x^2) P_N' *)
Definition W (n : nat) (x : R) : R := (1 - x * x) * D n x.
Lemma Wpoly n : is_poly (S (S n)) (W n).
Proof.
  apply is_poly_ext with (fun x => D n x - x * (x * D n x)); [|intros; unfold W; ring].
  apply is_poly_minus; [eapply is_poly_le; [apply Dpoly'|lia]|]. apply is_poly_X, is_poly_X, Dpoly'.
Qed.
Lemma dW n x : is_derive (W n) x (- (INR n * (INR n + 1)) * P n x).
Proof.
  unfold W. assert (H := dD n x). auto_derive; [splits; auto; eexists; eauto|]. rewrite (is_derive_unique (fun t : R => D n t) x _ H).
  transitivity (-2 * x * D n x + (1 - x * x) * D2 n x); [ring|]. rewrite ode. ring.
Qed.

Lemma lobatto N a : (1 <= N)%nat -> (forall i j, (i < S N)%nat -> (j < S N)%nat -> a i = a j -> i = j) -> (forall k, (k < S N)%nat -> W N (a k) = 0) ->
  forall f, is_poly (2 * N) f -> I f (sumn (S N) (fun k => 2 / (INR N * (INR N + 1) * P N (a k) * P N (a k)) * f (a k))).
Proof.
  intros Hn Ha Z f Hf. destruct N as [|m]; [lia|]. npos m. destruct (quotients (S (S m)) (W (S m)) (Wpoly (S m))) as (q & Q).
  apply (quadrature (S (S m)) m (W (S m)) (fun k => q (a k))); auto; try lia.
  - apply Wpoly.
  - intros k Hk. destruct (Q (a k) (Z k Hk)) as [Q1 Q2]. specialize (Z k Hk).
    assert (SL := quotient_slope _ _ _ _ _ Q1 Q2 (dW (S m) (a k))).
    assert (E1 : P m (a k) = a k * P (S m) (a k)).
    { assert (AA := dA m (a k)). unfold W in Z. assert ((INR m + 1) * (a k * P (S m) (a k) - P m (a k)) = 0) by lra. apply Rmult_integral in H0. destruct H0; lra. }
    assert (ES : forall x, S_ (S m) (a k) x = - P (S m) (a k) * (q (a k) x + (INR m + 1) * P (S m) x)).
    { apply (cancel (S m) (S (S m)) (a k)); [apply S_poly| |].
      - apply is_poly_scal, is_poly_plus; auto. apply is_poly_scal, Ppoly.
      - intros x. rewrite darboux, E1. assert (AX := dA m x). assert (QX := Q2 x). unfold W in QX.
        transitivity (- P (S m) (a k) * ((x - a k) * q (a k) x + (INR m + 1) * (x - a k) * P (S m) x)); [|ring]. rewrite <- QX.
        transitivity (P (S m) (a k) * ((INR m + 1) * (x * P (S m) x - P m x) - (INR m + 1) * (x - a k) * P (S m) x)); [ring|]. rewrite <- AX. ring. }
    destruct (poly_I _ _ Q1) as (v & V).
    assert (EV : - P (S m) (a k) * v = 2).
    { apply (I_unique (S_ (S m) (a k))); [|apply S_int].
      apply (I_ext (fun x => - P (S m) (a k) * (q (a k) x + (INR m + 1) * P (S m) x))); [|intros; now rewrite ES].
      replace v with (v + (INR m + 1) * 0) by ring. apply I_scal, I_plus; auto. apply I_scal. apply (I_P (S m)). }
    assert (NP : P (S m) (a k) <> 0) by (intros E; rewrite E in EV; lra).
    rewrite SL, S_INR. splits; auto.
    + apply Rmult_integral_contrapositive_currified; auto. assert (0 < (INR m + 1) * (INR m + 1 + 1)) by (apply Rmult_lt_0_compat; lra). lra.
    + replace (2 / ((INR m + 1) * (INR m + 1 + 1) * P (S m) (a k) * P (S m) (a k)) * (- ((INR m + 1) * (INR m + 1 + 1)) * P (S m) (a k))) with v; auto.
      rewrite <- EV. field. splits; auto; lra.
  - intros g Hg. destruct (poly_anti m g Hg) as (G & HG & DG).
    assert (IF : I (fun x => g x * W (S m) x + G x * (- (INR (S m) * (INR (S m) + 1)) * P (S m) x)) (G 1 * W (S m) 1 - G (-1) * W (S m) (-1))).
    { apply (I_deriv (m + S (S m)) (fun x => G x * W (S m) x)).
      - apply is_poly_plus; [eapply is_poly_le; [apply (is_poly_mul m (S (S m))); [auto|apply Wpoly]|lia]|].
        eapply is_poly_le; [apply (is_poly_mul (S m) (S m)); [auto|]|lia]. apply is_poly_scal, Ppoly.
      - intros x. assert (K1 := DG x). assert (K2 := dW (S m) x). auto_derive; [splits; auto; eexists; eauto|].
        rewrite (is_derive_unique (fun t : R => G t) x _ K1), (is_derive_unique (fun t : R => W (S m) t) x _ K2). ring. }
    assert (IO := I_scal (INR (S m) * (INR (S m) + 1)) _ _ (ortho_low (S m) G HG)).
    assert (IT := I_plus _ _ _ _ IF IO). eapply I_ext in IT; [|intros x; instantiate (1 := fun x => g x * W (S m) x); cbv beta; ring].
    unfold W at 2 3 in IT. replace (G 1 * ((1 - 1 * 1) * D (S m) 1) - G (-1) * ((1 - -1 * -1) * D (S m) (-1)) + INR (S m) * (INR (S m) + 1) * 0) with 0 in IT by ring. exact IT.
  - replace (S (S m) + m)%nat with (2 * S m)%nat by lia. auto.
Qed.
