(** Polynomials as coefficient lists: roots and derivatives. *)
From Coq Require Import Reals Lra Lia List Psatz.
From Coquelicot Require Import Coquelicot.
From Verif Require Import RSum.
Import ListNotations.
Open Scope R_scope.

(** value of the polynomial with coefficients p, lowest degree first *)
Fixpoint peval (p : list R) (x : R) : R := match p with [] => 0 | c :: q => c + x * peval q x end.

(** f is a polynomial function of degree below n *)
Definition is_poly (n : nat) (f : R -> R) : Prop := exists p, (length p <= n)%nat /\ forall x, f x = peval p x.

Fixpoint padd (p q : list R) : list R := match p, q with [], _ => q | _, [] => p | c :: p', d :: q' => (c + d) :: padd p' q' end.
Definition pscale (k : R) (p : list R) : list R := map (fun c => k * c) p.

Lemma peval_padd p q x : peval (padd p q) x = peval p x + peval q x.
Proof. revert q. induction p as [|c p IH]; intros [|d q]; cbn; try lra. rewrite IH. ring. Qed.
Lemma padd_length p q : length (padd p q) = Nat.max (length p) (length q).
Proof. revert q. induction p as [|c p IH]; intros [|d q]; cbn; auto. Qed.
Lemma peval_pscale k p x : peval (pscale k p) x = k * peval p x.
Proof. induction p as [|c p IH]; cbn; [lra|]. fold (pscale k p). rewrite IH. ring. Qed.

Lemma is_poly_ext n f g : is_poly n f -> (forall x, f x = g x) -> is_poly n g.
Proof. intros (p & L & H) E. exists p. split; auto. intros x. now rewrite <- E. Qed.
Lemma is_poly_le n m f : is_poly n f -> (n <= m)%nat -> is_poly m f.
Proof. intros (p & L & H) E. exists p. split; auto. lia. Qed.
Lemma is_poly_zero n : is_poly n (fun _ => 0).
Proof. exists []. split; [cbn; lia|reflexivity]. Qed.
Lemma is_poly_const n c : (1 <= n)%nat -> is_poly n (fun _ => c).
Proof. intros H. exists [c]. split; [cbn; lia|]. intros x. cbn. ring. Qed.
Lemma is_poly_plus n f g : is_poly n f -> is_poly n g -> is_poly n (fun x => f x + g x).
Proof.
  intros (p & L & H) (q & M & K). exists (padd p q). split; [rewrite padd_length; lia|]. intros x. now rewrite peval_padd, H, K.
Qed.
Lemma is_poly_scal n k f : is_poly n f -> is_poly n (fun x => k * f x).
Proof. intros (p & L & H). exists (pscale k p). split; [unfold pscale; now rewrite map_length|]. intros x. now rewrite peval_pscale, H. Qed.
Lemma is_poly_minus n f g : is_poly n f -> is_poly n g -> is_poly n (fun x => f x - g x).
Proof. intros H K. apply is_poly_ext with (fun x => f x + (-1) * g x); [|intros; ring]. apply is_poly_plus; auto. now apply is_poly_scal. Qed.
Lemma is_poly_X n f : is_poly n f -> is_poly (S n) (fun x => x * f x).
Proof. intros (p & L & H). exists (0 :: p). split; [cbn; lia|]. intros x. cbn. rewrite H. ring. Qed.
Lemma is_poly_lin n a f : is_poly n f -> is_poly (S n) (fun x => (x - a) * f x).
Proof.
  intros H. apply is_poly_ext with (fun x => x * f x + (- a) * f x); [|intros; ring].
  apply is_poly_plus; [now apply is_poly_X|]. apply is_poly_scal. eapply is_poly_le; eauto.
Qed.
Lemma is_poly_sum n m (F : nat -> R -> R) : (forall j, (j < m)%nat -> is_poly n (F j)) -> is_poly n (fun x => sumn m (fun j => F j x)).
Proof.
  induction m as [|m IH]; intros H; cbn [sumn]; [apply is_poly_zero|]. apply is_poly_plus; auto.
Qed.

(** division by x - a *)
Fixpoint pdiv (p : list R) (a : R) : list R :=
  match p with [] => [] | c :: q => match q with [] => [] | _ => peval q a :: pdiv q a end end.

Lemma pdiv_length p a : length (pdiv p a) = (length p - 1)%nat.
Proof. induction p as [|c p IH]; auto. cbn [pdiv]. destruct p as [|d q]; auto. cbn [length] in *. rewrite IH. lia. Qed.
Lemma pdiv_spec p a x : peval p x = peval p a + (x - a) * peval (pdiv p a) x.
Proof.
  induction p as [|c p IH]; [cbn; ring|]. cbn [pdiv]. destruct p as [|d q]; [cbn; ring|].
  set (r := d :: q) in *. cbn [peval]. rewrite IH. ring.
Qed.

(** a polynomial of degree below n with n distinct roots vanishes *)
Lemma poly_roots n f (a : nat -> R) : is_poly n f ->
  (forall i j, (i < n)%nat -> (j < n)%nat -> a i = a j -> i = j) -> (forall i, (i < n)%nat -> f (a i) = 0) -> forall x, f x = 0.
Proof.
  revert f. induction n as [|n IH]; intros f (p & L & H) Hd Hr x.
  - destruct p; [|cbn in L; lia]. now rewrite H.
  - assert (E : forall y, f y = (y - a n) * peval (pdiv p (a n)) y).
    { intros y. rewrite H, (pdiv_spec p (a n)). rewrite <- H, Hr by lia. ring. }
    rewrite E. rewrite (IH (peval (pdiv p (a n)))); [ring| | |].
    + exists (pdiv p (a n)). split; [rewrite pdiv_length; lia|reflexivity].
    + intros i j Hi Hj. apply Hd; lia.
    + intros i Hi. pose proof (Hr i ltac:(lia)) as K. rewrite E in K. apply Rmult_integral in K. destruct K as [K|K]; auto.
      assert (i = n) by (apply Hd; [lia|lia|lra]). lia.
Qed.

Lemma poly_agree n f g (a : nat -> R) : is_poly n f -> is_poly n g ->
  (forall i j, (i < n)%nat -> (j < n)%nat -> a i = a j -> i = j) -> (forall i, (i < n)%nat -> f (a i) = g (a i)) -> forall x, f x = g x.
Proof.
  intros Hf Hg Hd He x. apply Rminus_diag_uniq. apply (poly_roots n (fun x => f x - g x) a); auto.
  - now apply is_poly_minus.
  - intros i Hi. rewrite He by auto. ring.
Qed.

(** derivatives *)
Lemma is_derive_sumn m (F : nat -> R -> R) (D : nat -> R) x : (forall j, (j < m)%nat -> is_derive (F j) x (D j)) ->
  is_derive (fun x => sumn m (fun j => F j x)) x (sumn m D).
Proof.
  induction m as [|m IH]; intros H; cbn [sumn]; [apply (is_derive_const (K := R_AbsRing) (V := R_NormedModule))|].
  apply (is_derive_plus (K := R_AbsRing) (V := R_NormedModule)); auto.
Qed.

Fixpoint pder (p : list R) : list R := match p with [] => [] | c :: q => match q with [] => [] | _ => padd q (0 :: pder q) end end.
Lemma pder_length p : length (pder p) = (length p - 1)%nat.
Proof. induction p as [|c p IH]; auto. cbn [pder]. destruct p as [|d q]; auto. rewrite padd_length. cbn [length] in *. rewrite IH. lia. Qed.
Lemma is_derive_peval p x : is_derive (peval p) x (peval (pder p) x).
Proof.
  induction p as [|c p IH]; [apply (is_derive_const (K := R_AbsRing) (V := R_NormedModule))|].
  assert (E : peval (pder (c :: p)) x = peval p x + x * peval (pder p) x).
  { cbn [pder]. destruct p as [|d q]; [cbn; ring|]. rewrite peval_padd. cbn [peval]. ring. }
  rewrite E. cbn [peval].
  auto_derive; [exists (peval (pder p) x); auto|]. replace (Derive (fun x0 => peval p x0) x) with (peval (pder p) x) by (symmetry; apply is_derive_unique; exact IH). ring.
Qed.
Lemma is_poly_derive n f : is_poly (S n) f -> exists f', is_poly n f' /\ forall x, is_derive f x (f' x).
Proof.
  intros (p & L & H). exists (peval (pder p)). split.
  - exists (pder p). split; [rewrite pder_length; lia|reflexivity].
  - intros x. apply (is_derive_ext (peval p)); [intros; now rewrite H|]. apply is_derive_peval.
Qed.
