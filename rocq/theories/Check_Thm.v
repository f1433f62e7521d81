(** C104: when the assertions pass. *)
From Coq Require Import List Bool ZArith Lia Reals Lra.
From Flocq Require Import Core IEEE754.BinarySingleNaN Plus_error.
From Verif Require Import Base Dense_Model Check_Model.
Import ListNotations.
Local Open Scope R_scope.

(* ------------------------------------------------------------------ *)
(** * Specification *)
(** rounding to nearest, ties to even, in the format of f64 (precision 53, smallest exponent -1074, no largest exponent) *)
Definition rne (z : R) : R := round radix2 (FLT_exp (-1074) 53) ZnearestE z.
(** the distance between one and the next f64 number at z *)
Definition ulp64 (z : R) : R := ulp radix2 (FLT_exp (-1074) 53) z.
(** two f64 numbers are finite, and their difference, rounded to f64, is at most tol *)
Definition close (tol : f64) (x y : f64) : Prop :=
  is_finite x = true /\ is_finite y = true /\ Rabs (rne (B2R x - B2R y)) <= B2R tol.

(* ------------------------------------------------------------------ *)
(** * Lemmas *)
Lemma panic_if_ok b : panic_if b = Ok tt <-> b = false.
Proof. destruct b; cbn; split; congruence. Qed.
Lemma bind_panic_if b (k : res unit) : (_ <- panic_if b ;; k) = Ok tt <-> b = false /\ k = Ok tt.
Proof. destruct b; cbn; intuition congruence. Qed.
Lemma panic_only b : panic_if b = Ok tt \/ panic_if b = Panic.
Proof. destruct b; cbn; auto. Qed.
Lemma panic_cases b (k : res unit) : k = Ok tt \/ k = Panic -> (_ <- panic_if b ;; k) = Ok tt \/ (_ <- panic_if b ;; k) = Panic.
Proof. destruct b; cbn; auto. Qed.
Lemma bind_res {A B} (r : res A) (k : A -> res B) v : bind r k = Ok v <-> exists x, r = Ok x /\ k x = Ok v.
Proof. destruct r; cbn; split; intros H; try congruence; eauto; destruct H as (x & E & H); congruence. Qed.

Lemma for_n_all (f : nat -> unit -> res unit) n : forall lo,
  for_n n lo f tt = Ok tt <-> forall i, (lo <= i < lo + n)%nat -> f i tt = Ok tt.
Proof.
  induction n as [|n IH]; intros lo; cbn [for_n].
  - split; auto. intros _ i H. lia.
  - rewrite bind_res. split.
    + intros ([] & E & K) i H. rewrite IH in K. destruct (Nat.eq_dec i lo); subst; auto. apply K. lia.
    + intros H. exists tt. split; [apply H; lia|]. apply IH. intros i Hi. apply H. lia.
Qed.
Lemma for_range_all (f : nat -> unit -> res unit) n :
  for_range 0 n f tt = Ok tt <-> forall i, (i < n)%nat -> f i tt = Ok tt.
Proof.
  unfold for_range. rewrite Nat.sub_0_r, for_n_all. split; intros H i Hi; apply H; lia.
Qed.
Lemma vget_iff {A} (l : list A) i x : vget l i = Ok x <-> nth_error l i = Some x.
Proof. unfold vget. destruct (nth_error l i); split; congruence. Qed.

Lemma forall2_len {A B} (P : A -> B -> Prop) u v : Forall2 P u v -> length u = length v.
Proof. induction 1; cbn; auto. Qed.

Lemma not_finite x : is_finite x = true <-> is_nan64 x = false /\ is_infinite x = false.
Proof. destruct x; cbn; intuition congruence. Qed.

Lemma diff_finite x y : is_finite x = true -> is_finite y = true ->
  (Rabs (rne (B2R x - B2R y)) < bpow radix2 1024 /\ is_finite (abs_diff x y) = true /\ B2R (abs_diff x y) = Rabs (rne (B2R x - B2R y))) \/
  (bpow radix2 1024 <= Rabs (rne (B2R x - B2R y)) /\ abs_diff x y = B754_infinity false).
Proof.
  intros X Y. pose proof (Bminus_correct 53 1024 _ _ mode_NE x y X Y) as C.
  change (round radix2 (SpecFloat.fexp 53 1024) (round_mode mode_NE) (B2R x - B2R y)) with (rne (B2R x - B2R y)) in C.
  unfold abs_diff. destruct (Rlt_bool_spec (Rabs (rne (B2R x - B2R y))) (bpow radix2 1024)) as [L|L].
  - left. destruct C as (C1 & C2 & _). rewrite is_finite_Babs, B2R_Babs, C1. auto.
  - right. split; auto. destruct C as [C _]. clear L X Y. destruct (Bminus mode_NE x y); cbn [B2SF] in C; try discriminate C. auto.
Qed.

Lemma within_iff tol x y : is_finite tol = true -> is_finite x = true -> is_finite y = true ->
  (Bltb tol (abs_diff x y) = false <-> Rabs (rne (B2R x - B2R y)) <= B2R tol).
Proof.
  intros T X Y. destruct (diff_finite x y X Y) as [(L & F & V)|(L & V)].
  - rewrite Bltb_correct, V by auto. case Rlt_bool_spec; intros H; split; try congruence; intros; lra.
  - rewrite V. pose proof (abs_B2R_lt_emax 53 1024 tol) as B. apply Rabs_def2 in B.
    split; [|lra]. clear B L V X Y. destruct tol; try discriminate T; destruct s; intros H; discriminate H.
Qed.
Lemma diff_finite_args x y : is_finite (abs_diff x y) = true -> is_finite x = true /\ is_finite y = true.
Proof. unfold abs_diff. rewrite is_finite_Babs. destruct x as [| [] | |], y as [| [] | |]; cbn; auto. Qed.

(* ------------------------------------------------------------------ *)
(** * Theorems *)

(** approx_eq passes exactly for finite numbers whose f64 difference is at most the tolerance; otherwise it panics. *)
Theorem C104_approx_eq : forall T (to_f64 : T -> f64) a b tol, is_finite tol = true ->
  (approx_eq to_f64 a b tol = Ok tt <-> close tol (to_f64 a) (to_f64 b)) /\
  (approx_eq to_f64 a b tol = Panic <-> ~ close tol (to_f64 a) (to_f64 b)).
Proof.
  intros T to a b tol Ft.
  assert (E : approx_eq to a b tol = Ok tt <-> close tol (to a) (to b)).
  { unfold approx_eq, close. cbv zeta. rewrite !bind_panic_if, panic_if_ok, !not_finite. split.
    - intros (Na & Nb & Ia & Ib & D). splits; auto. apply within_iff in D; auto; apply not_finite; auto.
    - intros ((Na & Ia) & (Nb & Ib) & D). splits; auto. apply within_iff; auto; apply not_finite; auto. }
  split; auto. rewrite <- E. assert (K : approx_eq to a b tol = Ok tt \/ approx_eq to a b tol = Panic).
  { unfold approx_eq. cbv zeta. do 4 apply panic_cases. apply panic_only. }
  destruct K as [-> | ->]; intuition congruence.
Qed.

Lemma format64 (x : f64) : generic_format radix2 (FLT_exp (-1074) 53) (B2R x).
Proof. exact (generic_format_B2R 53 1024 x). Qed.
#[local] Instance valid64 : Valid_exp (FLT_exp (-1074) 53).
Proof. apply FLT_exp_valid. reflexivity. Qed.
#[local] Instance mono64 : Monotone_exp (FLT_exp (-1074) 53).
Proof. apply FLT_exp_monotone. Qed.

(** A pair of finite numbers at a distance of at most tol (in the reals) is always accepted. *)
Theorem C104_accepts : forall T (to_f64 : T -> f64) a b tol, is_finite tol = true ->
  is_finite (to_f64 a) = true -> is_finite (to_f64 b) = true ->
  Rabs (B2R (to_f64 a) - B2R (to_f64 b)) <= B2R tol -> approx_eq to_f64 a b tol = Ok tt.
Proof.
  intros T to a b tol Ft Fa Fb H. apply C104_approx_eq; auto. unfold close. splits; auto.
  apply abs_round_le_generic; auto with typeclass_instances. apply format64.
Qed.
(** A pair that is accepted is at a distance of at most the tolerance plus half a unit in its last place. *)
Theorem C104_rejects : forall T (to_f64 : T -> f64) a b tol, is_finite tol = true ->
  approx_eq to_f64 a b tol = Ok tt ->
  Rabs (B2R (to_f64 a) - B2R (to_f64 b)) <= B2R tol + / 2 * ulp64 (B2R tol).
Proof.
  intros T to a b tol Ft H. apply C104_approx_eq in H; auto. destruct H as (_ & _ & H).
  set (z := B2R (to a) - B2R (to b)) in *.
  pose proof (error_le_half_ulp_round radix2 (FLT_exp (-1074) 53) (fun x => negb (Z.even x)) z) as E.
  change (round radix2 (FLT_exp (-1074) 53) (Znearest (fun x => negb (Z.even x))) z) with (rne z) in E.
  assert (U : ulp64 (rne z) <= ulp64 (B2R tol)).
  { apply ulp_le; auto with typeclass_instances. pose proof (Rabs_pos (rne z)). rewrite (Rabs_pos_eq (B2R tol)); lra. }
  unfold ulp64 in *. pose proof (Rabs_triang_inv z (rne z)). rewrite (Rabs_minus_sym z) in H0. lra.
Qed.
(** With tolerance zero the assertion is equality of the two numbers; a negative tolerance is never met. *)
Theorem C104_zero_tol : forall T (to_f64 : T -> f64) a b tol, is_finite tol = true ->
  (B2R tol = 0 -> approx_eq to_f64 a b tol = Ok tt <->
     is_finite (to_f64 a) = true /\ is_finite (to_f64 b) = true /\ B2R (to_f64 a) = B2R (to_f64 b)) /\
  (B2R tol < 0 -> approx_eq to_f64 a b tol = Panic).
Proof.
  intros T to a b tol Ft. split.
  - intros Z. destruct (C104_approx_eq T to a b tol Ft) as [-> _]. unfold close. rewrite Z. split.
    + intros (A & B & H). splits; auto.
      destruct (Req_dec (B2R (to a) + - B2R (to b)) 0) as [E|E]; [lra|]. exfalso.
      apply (round_plus_neq_0 radix2 (FLT_exp (-1074) 53) ZnearestE) in E.
      * apply E. apply Rabs_eq_R0. pose proof (Rabs_pos (rne (B2R (to a) - B2R (to b)))) as P. unfold rne, Rminus in *. lra.
      * apply format64.
      * apply generic_format_opp, format64.
    + intros (A & B & E). splits; auto. unfold rne. rewrite E, Rminus_eq_0, round_0, Rabs_R0; auto with typeclass_instances. lra.
  - intros N. apply C104_approx_eq; auto. intros (_ & _ & H). pose proof (Rabs_pos (rne (B2R (to a) - B2R (to b)))). lra.
Qed.
(** The order of the two numbers does not matter. *)
Theorem C104_symmetric : forall T (to_f64 : T -> f64) a b tol, is_finite tol = true ->
  approx_eq to_f64 a b tol = approx_eq to_f64 b a tol.
Proof.
  intros T to a b tol Ft.
  assert (S : forall x y, close tol x y -> close tol y x).
  { intros x y (A & B & H). unfold close. splits; auto. unfold rne in *. rewrite <- Ropp_minus_distr, round_NE_opp, Rabs_Ropp. auto. }
  destruct (C104_approx_eq T to a b tol Ft) as [E1 F1]. destruct (C104_approx_eq T to b a tol Ft) as [E2 F2].
  destruct (approx_eq to a b tol) as [[]|e|] eqn:Ea.
  - symmetry. apply E2, S, E1. auto.
  - exfalso. revert Ea. unfold approx_eq, panic_if. cbv zeta.
    destruct (is_nan64 (to a)), (is_nan64 (to b)), (is_infinite (to a)), (is_infinite (to b)); cbn [bind]; try discriminate.
    destruct (Bltb _ _); discriminate.
  - symmetry. apply F2. intros K. apply (proj1 F1 eq_refl). auto.
Qed.
(** FINDING. A NaN tolerance disables the comparison: all pairs of finite numbers pass, whatever their difference. *)
Theorem C104_nan_tol_refuted : forall T (to_f64 : T -> f64) a b,
  is_finite (to_f64 a) = true -> is_finite (to_f64 b) = true -> approx_eq to_f64 a b B754_nan = Ok tt.
Proof.
  intros T to a b A B. apply not_finite in A, B. unfold approx_eq. cbv zeta.
  rewrite !bind_panic_if, panic_if_ok. splits; try tauto.
Qed.

(** Arrays and vectors: same length, and all pairs accepted. *)
Theorem C104_array_approx_eq : forall T (to_f64 : T -> f64) u v tol, is_finite tol = true ->
  array_approx_eq to_f64 u v tol = Ok tt <-> Forall2 (fun x y => close tol (to_f64 x) (to_f64 y)) u v.
Proof.
  intros T to u v tol Ft. unfold array_approx_eq. cbv zeta. rewrite bind_panic_if, for_range_all.
  assert (K : forall x y, approx_eq to x y tol = Ok tt <-> close tol (to x) (to y)) by (intros; now apply C104_approx_eq).
  rewrite negb_false_iff, Nat.eqb_eq. split.
  - intros [L H]. revert v L H. induction u as [|x u IH]; intros [|y v] L H; try discriminate L; constructor.
    + apply K. apply (H 0%nat). cbn. lia.
    + apply IH; [now inversion L|]. intros i Hi. apply (H (S i)). cbn. lia.
  - intros F. split; [eapply forall2_len; eauto|]. induction F as [|x y u v C F IH]; intros i Hi; [inversion Hi|].
    destruct i as [|i]; [exact (proj2 (K x y) C)|]. apply IH. cbn in Hi. lia.
Qed.
Theorem C104_vec_approx_eq : forall u v tol, is_finite tol = true ->
  vec_approx_eq u v tol = Ok tt <-> Forall2 (close tol) u v.
Proof. intros u v tol Ft. apply (C104_array_approx_eq f64 (fun x => x)); auto. Qed.

Lemma complex_iff T (to : T -> f64) a b tol : is_finite tol = true ->
  complex_approx_eq to a b tol = Ok tt <-> close tol (to (fst a)) (to (fst b)) /\ close tol (to (snd a)) (to (snd b)).
Proof.
  intros Ft. unfold complex_approx_eq. cbv zeta. rewrite !bind_panic_if, panic_if_ok. unfold close. rewrite !not_finite. split.
  - intros H. decompose [and] H. splits; auto; apply within_iff; auto; apply not_finite; auto.
  - intros H. decompose [and] H. splits; auto; apply within_iff; auto; apply not_finite; auto.
Qed.
(** Complex numbers: real and imaginary parts. *)
Theorem C104_complex_approx_eq : forall T (to_f64 : T -> f64) a b tol, is_finite tol = true ->
  complex_approx_eq to_f64 a b tol = Ok tt <->
  close tol (to_f64 (fst a)) (to_f64 (fst b)) /\ close tol (to_f64 (snd a)) (to_f64 (snd b)).
Proof. intros. now apply complex_iff. Qed.
Theorem C104_complex_array_approx_eq : forall T (to_f64 : T -> f64) u v tol, is_finite tol = true ->
  complex_array_approx_eq to_f64 u v tol = Ok tt <->
  Forall2 (fun a b => close tol (to_f64 (fst a)) (to_f64 (fst b)) /\ close tol (to_f64 (snd a)) (to_f64 (snd b))) u v.
Proof.
  intros T to u v tol Ft. unfold complex_array_approx_eq. cbv zeta. rewrite bind_panic_if, for_range_all.
  pose proof (fun x y => complex_iff T to x y tol Ft) as K.
  rewrite negb_false_iff, Nat.eqb_eq. split.
  - intros [L H]. revert v L H. induction u as [|x u IH]; intros [|y v] L H; try discriminate L; constructor.
    + apply K. apply (H 0%nat). cbn. lia.
    + apply IH; [now inversion L|]. intros i Hi. apply (H (S i)). cbn. lia.
  - intros F. split; [eapply forall2_len; eauto|]. induction F as [|x y u v C F IH]; intros i Hi; [inversion Hi|].
    destruct i as [|i]; [exact (proj2 (K x y) C)|]. apply IH. cbn in Hi. lia.
Qed.
Theorem C104_complex_vec_approx_eq : forall u v tol, is_finite tol = true ->
  complex_vec_approx_eq u v tol = Ok tt <-> Forall2 (fun a b => close tol (fst a) (fst b) /\ close tol (snd a) (snd b)) u v.
Proof. intros u v tol Ft. apply (C104_complex_array_approx_eq f64 (fun x => x)); auto. Qed.

(** assert_alike passes exactly for identical f64 values: the same number with the same sign of zero, or two NaN. *)
Theorem C104_assert_alike : forall a b, (assert_alike a b = Ok tt <-> a = b) /\ (assert_alike a b = Panic <-> a <> b).
Proof.
  intros a b. assert (E : assert_alike a b = Ok tt <-> a = b).
  { unfold assert_alike. rewrite panic_if_ok, negb_false_iff. split.
    - intros H. apply B2SF_inj. destruct a as [[]|[]| |[] ma ea Ha], b as [[]|[]| |[] mb eb Hb]; cbn in H |- *; try discriminate H; auto.
      + destruct (Z.compare_spec ea eb) as [->| |]; try discriminate H.
        destruct (Pos.compare_cont Eq ma mb) eqn:C; try discriminate H. apply Pos.compare_eq in C. now subst.
      + destruct (Z.compare_spec ea eb) as [->| |]; try discriminate H.
        destruct (Pos.compare_cont Eq ma mb) eqn:C; try discriminate H. apply Pos.compare_eq in C. now subst.
    - intros <-. destruct a as [[]|[]| |[] m e H]; cbn; auto; rewrite Z.compare_refl;
        change (Pos.compare_cont Eq m m) with (Pos.compare m m); now rewrite Pos.compare_refl. }
  split; auto. rewrite <- E. unfold assert_alike. destruct (panic_only (negb
    (if is_nan64 a && is_nan64 b then true else if Beqb a b then Bool.eqb (Bsign a) (Bsign b) else false))) as [-> | ->]; intuition congruence.
Qed.

Lemma entry_iff tol x y : is_finite tol = true ->
  (_ <- panic_if (is_nan64 (abs_diff x y)) ;; _ <- panic_if (is_infinite (abs_diff x y)) ;; panic_if (Bltb tol (abs_diff x y))) = Ok tt
  <-> close tol x y.
Proof.
  intros Ft. rewrite !bind_panic_if, panic_if_ok. unfold close. split.
  - intros (N & I & D). assert (F : is_finite (abs_diff x y) = true) by (apply not_finite; auto).
    apply diff_finite_args in F. destruct F as [X Y]. splits; auto. now apply within_iff.
  - intros (X & Y & D). apply within_iff in D; auto. destruct (diff_finite x y X Y) as [(_ & F & _)|(_ & V)].
    + apply not_finite in F. tauto.
    + rewrite V in D. clear V. destruct tol; try discriminate Ft; destruct s; discriminate D.
Qed.
(** Matrices: a nested array with at least one row, as many rows as the matrix and a first row of as many entries as
    the matrix has columns; and all entries accepted. *)
Theorem C104_mat_approx_eq : forall a b tol, is_finite tol = true ->
  mat_approx_eq a b tol = Ok tt <->
  (exists row, nth_error b 0 = Some row /\ length row = d_ncol a) /\ length b = d_nrow a /\
  forall i j, (i < d_nrow a)%nat -> (j < d_ncol a)%nat -> exists x row y,
    nth_error (d_data a) (i + j * d_nrow a) = Some x /\ nth_error b i = Some row /\ nth_error row j = Some y /\ close tol x y.
Proof.
  intros a b tol Ft. unfold mat_approx_eq, nested_size. rewrite !bind_res. split.
  - intros ([mm nn] & S & H). rewrite bind_res in S. destruct S as (row & R & E). inversion E; subst mm nn; clear E.
    apply vget_iff in R. rewrite !bind_panic_if, for_range_all, !negb_false_iff, !Nat.eqb_eq in H. destruct H as (M & N & H).
    splits; eauto. intros i j Hi Hj. specialize (H i Hi). rewrite for_range_all in H. specialize (H j Hj).
    unfold d_get, nested_at in H. rewrite bind_res in H. destruct H as (x & X & H). rewrite bind_res in H. destruct H as (y & Y & H).
    rewrite bind_res in Y. destruct Y as (r & Y1 & Y2). apply vget_iff in X, Y1, Y2. cbv zeta in H. rewrite entry_iff in H by auto.
    exists x, r, y. auto.
  - intros ((row & R & N) & M & H). exists (length b, length row). split.
    { rewrite bind_res. exists row. rewrite vget_iff. auto. }
    rewrite !bind_panic_if, for_range_all, !negb_false_iff, !Nat.eqb_eq. splits; auto.
    intros i Hi. rewrite for_range_all. intros j Hj. destruct (H i j Hi Hj) as (x & r & y & X & Y1 & Y2 & C).
    unfold d_get, nested_at. rewrite bind_res. exists x. rewrite vget_iff. split; auto. rewrite bind_res. exists y.
    rewrite bind_res. split; [exists r; now rewrite !vget_iff|]. cbv zeta. now apply entry_iff.
Qed.
Lemma bind_assoc_unit (a : res unit) (k : res unit) (r : res unit) :
  (_ <- a ;; _ <- k ;; r) = (_ <- (_ <- a ;; k) ;; r).
Proof. destruct a; auto. Qed.
Lemma entry2_iff tol x y u v : is_finite tol = true ->
  (_ <- panic_if (is_nan64 (abs_diff x y)) ;; _ <- panic_if (is_infinite (abs_diff x y)) ;; _ <- panic_if (Bltb tol (abs_diff x y)) ;;
   _ <- panic_if (is_nan64 (abs_diff u v)) ;; _ <- panic_if (is_infinite (abs_diff u v)) ;; panic_if (Bltb tol (abs_diff u v))) = Ok tt
  <-> close tol x y /\ close tol u v.
Proof. intros Ft. rewrite <- !entry_iff by auto. rewrite !bind_panic_if, !panic_if_ok. tauto. Qed.
Theorem C104_complex_mat_approx_eq : forall a b tol, is_finite tol = true ->
  complex_mat_approx_eq a b tol = Ok tt <->
  (exists row, nth_error b 0 = Some row /\ length row = d_ncol a) /\ length b = d_nrow a /\
  forall i j, (i < d_nrow a)%nat -> (j < d_ncol a)%nat -> exists x row y,
    nth_error (d_data a) (i + j * d_nrow a) = Some x /\ nth_error b i = Some row /\ nth_error row j = Some y /\
    close tol (fst x) (fst y) /\ close tol (snd x) (snd y).
Proof.
  intros a b tol Ft. unfold complex_mat_approx_eq, nested_size. rewrite !bind_res. split.
  - intros ([mm nn] & S & H). rewrite bind_res in S. destruct S as (row & R & E). inversion E; subst mm nn; clear E.
    apply vget_iff in R. rewrite !bind_panic_if, for_range_all, !negb_false_iff, !Nat.eqb_eq in H. destruct H as (M & N & H).
    splits; eauto. intros i j Hi Hj. specialize (H i Hi). rewrite for_range_all in H. specialize (H j Hj).
    unfold d_get, nested_at in H. rewrite bind_res in H. destruct H as (x & X & H). rewrite bind_res in H. destruct H as (y & Y & H).
    rewrite bind_res in Y. destruct Y as (r & Y1 & Y2). apply vget_iff in X, Y1, Y2. cbv zeta in H. rewrite entry2_iff in H by auto.
    exists x, r, y. tauto.
  - intros ((row & R & N) & M & H). exists (length b, length row). split.
    { rewrite bind_res. exists row. rewrite vget_iff. auto. }
    rewrite !bind_panic_if, for_range_all, !negb_false_iff, !Nat.eqb_eq. splits; auto.
    intros i Hi. rewrite for_range_all. intros j Hj. destruct (H i j Hi Hj) as (x & r & y & X & Y1 & Y2 & C).
    unfold d_get, nested_at. rewrite bind_res. exists x. rewrite vget_iff. split; auto. rewrite bind_res. exists y.
    rewrite bind_res. split; [exists r; now rewrite !vget_iff|]. cbv zeta. now apply entry2_iff.
Qed.
(** FINDING. A matrix without rows cannot be compared with an empty nested array: `size` indexes the first row and panics,
    although both are empty. *)
Theorem C104_empty_nested_refuted : forall n tol, mat_approx_eq (mkD 0 n []) [] tol = Panic.
Proof. reflexivity. Qed.
(** FINDING. Entries of later rows beyond the length of the first row are not compared (nor reported). *)
Theorem C104_ragged_refuted : forall x y tol, is_finite tol = true -> close tol x x ->
  mat_approx_eq (mkD 2 1 [x; x]) [[x]; [x; y]] tol = Ok tt.
Proof.
  intros x y tol Ft C. apply C104_mat_approx_eq; auto. cbn. splits; eauto.
  intros [|[|i]] [|j] Hi Hj; try lia; cbn; do 3 eexists; splits; eauto; cbn; auto.
Qed.

(** * Non-vacuity *)
Definition one64 : f64 := Bone.
Lemma one64_fin : is_finite one64 = true. Proof. reflexivity. Qed.
Example C104_passes : approx_eq (fun x => x) one64 one64 one64 = Ok tt.
Proof. apply C104_accepts; try reflexivity. rewrite Rminus_eq_0, Rabs_R0. unfold one64. rewrite Bone_correct. lra. Qed.
Example C104_fails : approx_eq (fun x => x) one64 (Bopp one64) one64 = Panic.
Proof. vm_compute. reflexivity. Qed.
Example C104_alike_zero : assert_alike (B754_zero false) (B754_zero true) = Panic.
Proof. reflexivity. Qed.
Example C104_array : array_approx_eq (fun x => x) [one64; one64] [one64; one64] one64 = Ok tt.
Proof.
  apply C104_array_approx_eq; [reflexivity|].
  assert (C : close one64 one64 one64) by (apply (C104_approx_eq f64 (fun x => x)); [reflexivity|apply C104_passes]). auto.
Qed.

Print Assumptions C104_approx_eq.
Print Assumptions C104_accepts.
Print Assumptions C104_rejects.
Print Assumptions C104_zero_tol.
Print Assumptions C104_symmetric.
Print Assumptions C104_nan_tol_refuted.
Print Assumptions C104_array_approx_eq.
Print Assumptions C104_vec_approx_eq.
Print Assumptions C104_complex_approx_eq.
Print Assumptions C104_complex_array_approx_eq.
Print Assumptions C104_complex_vec_approx_eq.
Print Assumptions C104_assert_alike.
Print Assumptions C104_mat_approx_eq.
Print Assumptions C104_complex_mat_approx_eq.
Print Assumptions C104_empty_nested_refuted.
Print Assumptions C104_ragged_refuted.
