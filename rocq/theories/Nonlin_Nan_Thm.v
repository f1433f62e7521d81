(** C68 (continued): residuals that are not finite. *)
From Coq Require Import ZArith Bool List Lia.
From Verif Require Import Nonlin_Nan_Model.
Import ListNotations.
Open Scope Z_scope.

(** `cblas_idamax` returns the index of an entry *)
Definition index_of (idamax : list Z -> nat) : Prop := forall v, v <> [] -> (idamax v < length v)%nat.

Lemma abs_expo u : f_expo (f_abs u) = f_expo u /\ f_frac (f_abs u) = f_frac u.
Proof.
  unfold f_expo, f_frac, f_abs. split.
    assert (H : u mod 2 ^ 63 / 2 ^ 52 = (u / 2 ^ 52) mod 2 ^ 11).
    { change (2 ^ 63) with (2 ^ 52 * 2 ^ 11). rewrite Z.rem_mul_r by (compute; congruence).
      rewrite Z.mul_comm, Z.add_comm, Z.div_add_l by (compute; congruence). rewrite (Z.div_small (u mod 2 ^ 52)) by (apply Z.mod_pos_bound; reflexivity). lia. }
    rewrite H. apply Z.mod_mod. compute; congruence.
  - change (2 ^ 63) with (2 ^ 52 * 2 ^ 11). rewrite Z.rem_mul_r by (compute; congruence).
    rewrite Z.mul_comm, Z.mod_add by (compute; congruence). apply Z.mod_mod. compute; congruence.
Qed.
Lemma abs_nan u : f_is_nan (f_abs u) = f_is_nan u.
Proof. unfold f_is_nan. destruct (abs_expo u) as [-> ->]. reflexivity. Qed.
Lemma abs_finite u : f_is_finite (f_abs u) = f_is_finite u.
Proof. unfold f_is_finite. destruct (abs_expo u) as [-> _]. reflexivity. Qed.

(** A NaN computed by the user's function is not detected: of the NaN norm of the residual and the number
    |N|, which is zero in the natural method, the maximum is zero.  So the iteration is declared converged,
    whatever the state is: a system with one equation that always evaluates to NaN has "converged" at once,
    and NanOrInfResidual is not reported. *)
Theorem C68_nan_residual_refuted idamax tol x : index_of idamax ->
  f_is_nan x = true -> f_lt (f_zero false) tol = true ->
  f_analyze_residual idamax tol [x] (f_zero false) = Ok (f_zero false, false, Some true).
Proof.
  intros Hi Hx Ht. unfold f_analyze_residual, f_norm_max.
  assert (H : idamax [x] = 0%nat). { specialize (Hi [x]). simpl in Hi. assert (idamax [x] < 1)%nat by (apply Hi; discriminate). lia. }
  rewrite H. change (vget [x] 0) with (Ok x). cbn [bind]. unfold f_max at 1 2. rewrite abs_nan, Hx.
  change (f_abs (f_zero false)) with (f_zero false). change (f_is_finite (f_zero false)) with true. simpl. unfold f_max. rewrite abs_nan, Hx. change 0 with (f_zero false) at 2. rewrite Ht. reflexivity.
Qed.

(** The NaN of the constraint function N (arclength method) is not detected either: with a zero residual G the
    maximum is the norm of G, and the iteration is declared converged. *)
Theorem C68_nan_constraint_refuted idamax tol x : index_of idamax ->
  f_is_nan x = true -> f_lt (f_zero false) tol = true ->
  f_analyze_residual idamax tol [f_zero false] x = Ok (f_zero false, false, Some true).
Proof.
  intros Hi Hx Ht. unfold f_analyze_residual, f_norm_max.
  assert (H : idamax [f_zero false] = 0%nat). { specialize (Hi [f_zero false]). simpl in Hi. assert (idamax [f_zero false] < 1)%nat by (apply Hi; discriminate). unfold f_zero in *. simpl in *. lia. }
  rewrite H. change (vget [f_zero false] 0) with (Ok (f_zero false)). cbn [bind]. change (f_abs (f_zero false)) with (f_zero false).
  assert (M : f_max (f_zero false) (f_abs x) = f_zero false) by (unfold f_max; rewrite abs_nan, Hx; reflexivity).
  rewrite M. change (f_is_finite (f_zero false)) with true. cbn [negb]. rewrite Ht. reflexivity.
Qed.

(** An infinite entry of largest magnitude is reported. *)
Theorem C68_infinite_residual idamax tol gg nn x : gg <> [] ->
  nth_error gg (idamax gg) = Some x -> f_is_inf x = true -> f_is_finite nn = true ->
  exists r, f_analyze_residual idamax tol gg nn = Ok (r, true, None).
Proof.
  intros Hg Hx Hi Hn. unfold f_analyze_residual, f_norm_max. destruct gg as [|a gg]; [congruence|].
  unfold vget. rewrite Hx. cbn [bind].
  assert (Nx : f_is_nan (f_abs x) = false). { rewrite abs_nan. unfold f_is_nan, f_is_inf in *. apply andb_prop in Hi. destruct Hi as [-> ->]. reflexivity. }
  assert (Nn : f_is_nan (f_abs nn) = false). { rewrite abs_nan. unfold f_is_nan, f_is_finite in *. destruct (f_expo nn =? 2047); [discriminate|reflexivity]. }
  assert (Fx : f_is_finite (f_abs x) = false). { rewrite abs_finite. unfold f_is_finite, f_is_inf in *. apply andb_prop in Hi. destruct Hi as [-> _]. reflexivity. }
  unfold f_max. rewrite Nx, Nn.
  assert (L : f_lt (f_abs x) (f_abs nn) = false).
  { unfold f_lt. rewrite Nx, Nn. simpl. unfold f_key.
    assert (S : forall u, f_sign (f_abs u) = false). { intros u. unfold f_sign, f_abs. apply Z.leb_gt. apply Z.mod_pos_bound. reflexivity. }
    rewrite !S. apply Z.ltb_ge. unfold f_abs. rewrite !Z.mod_mod by (compute; congruence). fold (f_abs x) (f_abs nn).
    destruct (abs_expo x) as [Ex Ef], (abs_expo nn) as [En _].
    unfold f_is_inf, f_is_finite in Hi, Hn. apply andb_prop in Hi. destruct Hi as [Hi _]. apply Z.eqb_eq in Hi.
    apply negb_true_iff, Z.eqb_neq in Hn. fold (f_abs x) (f_abs nn).
    assert (B : forall u, 0 <= f_abs u < 2 ^ 63) by (intros u; apply Z.mod_pos_bound; reflexivity).
    assert (D : forall u, f_expo (f_abs u) = f_abs u / 2 ^ 52).
    { intros u. unfold f_expo. apply Z.mod_small. specialize (B u). split; [apply Z.div_pos; [lia|reflexivity]|].
      apply Z.div_lt_upper_bound; [reflexivity|]. change (2 ^ 52 * 2 ^ 11) with (2 ^ 63). lia. }
    rewrite D in Ex, En.
    assert (Bn : f_expo nn < 2048) by (apply (Z.mod_pos_bound _ (2 ^ 11)); reflexivity).
    assert (f_abs nn < f_abs x); [|lia].
    assert (P : 0 < 2 ^ 52) by reflexivity.
    pose proof (Z.mul_div_le (f_abs x) (2 ^ 52) P). pose proof (Z.mul_succ_div_gt (f_abs nn) (2 ^ 52) P). rewrite Ex, Hi in *. rewrite En in *.
    nia. }
  rewrite L, Fx. eexists. reflexivity.
Qed.

(** the hypotheses hold: idamax of one entry, NaN, tolerance 1e-10 (and 1.0) *)
Example C68_nan_case : index_of (fun _ => 0%nat) /\ f_is_nan F_NAN = true /\ f_lt (f_zero false) 0x3ddb7cdfd9d7bdbb = true /\
  f_analyze_residual (fun _ => 0%nat) 0x3ddb7cdfd9d7bdbb [F_NAN] (f_zero false) = Ok (f_zero false, false, Some true).
Proof. splits; try reflexivity. intros [|a v] H; [congruence|simpl; lia]. Qed.
Example C68_infinite_case : f_is_inf (f_infinity true) = true /\ f_is_finite (f_zero false) = true /\
  nth_error [f_zero false; f_infinity true] 1 = Some (f_infinity true).
Proof. splits; reflexivity. Qed.

Print Assumptions C68_nan_residual_refuted.
Print Assumptions C68_infinite_residual.
Print Assumptions C68_nan_constraint_refuted.
