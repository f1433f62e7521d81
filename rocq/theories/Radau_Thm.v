(** Radau5: dense output (C71), constants (C72), stepsize controller (C56), history (C59). *)
From Coq Require Import Lra.
From Verif Require Import Radau_Model Ode_Base_Thm Ode_Drv_Thm Ode_Sim_Thm Erk_Thm.
Local Open Scope R_scope.

(* ------------------------------------------------------------------ *)
(** * Constants *)

(** the method: 3-stage Radau IIA, with the abscissae c of the code.  The matrix is the one for which the quadratures of the
    stages integrate polynomials up to degree 2 exactly (collocation) *)
Definition c_ (i : nat) : R := match i with 0%nat => (4 - sqrt 6) / 10 | 1%nat => (4 + sqrt 6) / 10 | _ => 1 end.
Definition A_ (i j : nat) : R :=
  match i, j with
  | 0%nat, 0%nat => (88 - 7 * sqrt 6) / 360 | 0%nat, 1%nat => (296 - 169 * sqrt 6) / 1800 | 0%nat, _ => (-2 + 3 * sqrt 6) / 225
  | 1%nat, 0%nat => (296 + 169 * sqrt 6) / 1800 | 1%nat, 1%nat => (88 + 7 * sqrt 6) / 360 | 1%nat, _ => (-2 - 3 * sqrt 6) / 225
  | _, 0%nat => (16 - sqrt 6) / 36 | _, 1%nat => (16 + sqrt 6) / 36 | _, _ => 1 / 9
  end.
Definition T_ (i j : nat) : R :=
  match i, j with
  | 0%nat, 0%nat => T00 | 0%nat, 1%nat => T01 | 0%nat, _ => T02
  | 1%nat, 0%nat => T10 | 1%nat, 1%nat => T11 | 1%nat, _ => T12
  | _, 0%nat => T20 | _, 1%nat => T21 | _, _ => T22
  end.
Definition TI_ (i j : nat) : R :=
  match i, j with
  | 0%nat, 0%nat => TI00 | 0%nat, 1%nat => TI01 | 0%nat, _ => TI02
  | 1%nat, 0%nat => TI10 | 1%nat, 1%nat => TI11 | 1%nat, _ => TI12
  | _, 0%nat => TI20 | _, 1%nat => TI21 | _, _ => TI22
  end.
(** the block diagonal matrix of the transformed system *)
Definition L_ (i j : nat) : R :=
  match i, j with
  | 0%nat, 0%nat => GAMMA | 1%nat, 1%nat => ALPHA | 1%nat, 2%nat => - BETA | 2%nat, 1%nat => BETA | 2%nat, 2%nat => ALPHA | _, _ => 0
  end.
Definition s3 (g : nat -> R) : R := g 0%nat + g 1%nat + g 2%nat.
Definition mul3 (a b : nat -> nat -> R) (i j : nat) : R := s3 (fun k => a i k * b k j).
Definition app3 (a : nat -> nat -> R) (v : nat -> R) (i : nat) : R := s3 (fun k => a i k * v k).

Lemma sqrt6_bounds : 2.4494897427831780981972840747058913919659474806566701284 <= sqrt 6 <= 2.4494897427831780981972840747058913919659474806566701285.
Proof.
  split.
  - rewrite <- (sqrt_Rsqr 2.4494897427831780981972840747058913919659474806566701284) by lra. apply sqrt_le_1_alt. unfold Rsqr. lra.
  - rewrite <- (sqrt_Rsqr 2.4494897427831780981972840747058913919659474806566701285) by lra. apply sqrt_le_1_alt. unfold Rsqr. lra.
Qed.
Lemma sqrt6_sq : sqrt 6 * sqrt 6 = 6.
Proof. apply sqrt_sqrt. lra. Qed.

(** A is the collocation matrix of the abscissae c: exact *)
Theorem C72_collocation : forall i d, (i < 3)%nat -> (d < 3)%nat -> s3 (fun j => A_ i j * c_ j ^ d) = c_ i ^ (d + 1) / INR (d + 1).
Proof.
  pose proof sqrt6_sq as S2. intros i d Hi Hd. unfold s3. set (r := sqrt 6) in *. unfold A_, c_. fold r. clearbody r.
  assert (S3 : r * r * r = 6 * r) by (rewrite S2; ring).
  destruct i as [|[|[|i]]]; try lia; (destruct d as [|[|[|d]]]; try lia); cbn [Nat.add INR pow]; nra.
Qed.

Theorem C72_inverse : forall i j, (i < 3)%nat -> (j < 3)%nat -> Rabs (mul3 T_ TI_ i j - (if Nat.eqb i j then 1 else 0)) <= 5/10^20.
Proof.
  intros i j Hi Hj. unfold mul3, s3.
  destruct i as [|[|[|i]]]; try lia; (destruct j as [|[|[|j]]]; try lia); cbn [T_ TI_ Nat.eqb]; apply Rabs_le;
    unfold T00, T01, T02, T10, T11, T12, T20, T21, T22, TI00, TI01, TI02, TI10, TI11, TI12, TI20, TI21, TI22; lra.
Qed.

Theorem C72_transformation : forall i j, (i < 3)%nat -> (j < 3)%nat -> Rabs (mul3 A_ (mul3 T_ L_) i j - T_ i j) <= 5/10^20.
Proof.
  pose proof sqrt6_bounds as [B1 B2]. set (r := sqrt 6) in *. intros i j Hi Hj. unfold mul3, s3.
  destruct i as [|[|[|i]]]; try lia; (destruct j as [|[|[|j]]]; try lia); cbn [T_ L_ A_]; fold r; apply Rabs_le;
    unfold T00, T01, T02, T10, T11, T12, T20, T21, T22, ALPHA, BETA, GAMMA; clearbody r; lra.
Qed.

(** gamma and alpha +- i beta are the three eigenvalues of the inverse of the
    coefficient matrix: the roots of x^3 - 9 x^2 + 36 x - 60 *)
Theorem C72_eigenvalues :
  Rabs (GAMMA + 2 * ALPHA - 9) <= 1/10^48 /\
  Rabs (ALPHA ^ 2 + BETA ^ 2 + 2 * ALPHA * GAMMA - 36) <= 1/10^47 /\
  Rabs (GAMMA * (ALPHA ^ 2 + BETA ^ 2) - 60) <= 1/10^46.
Proof. splits; apply Rabs_le; unfold GAMMA, ALPHA, BETA; lra. Qed.
Print Assumptions C72_eigenvalues.

(** the constants of the error estimate and of the dense output *)
Theorem C72_error_constants : Rabs (GAMMA * E0 - (-13 - 7 * sqrt 6) / 3) <= 1/10^47 /\ Rabs (GAMMA * E1 - (-13 + 7 * sqrt 6) / 3) <= 1/10^47 /\
  Rabs (GAMMA * E2 + 1 / 3) <= 1/10^47 /\ Rabs (GAMMA ^ 3 - 9 * GAMMA ^ 2 + 36 * GAMMA - 60) <= 1/10^46.
Proof.
  pose proof sqrt6_bounds as [B1 B2]. splits; apply Rabs_le; unfold GAMMA, E0, E1, E2; lra.
Qed.
Theorem C72_abscissae : Rabs (MU1 - C0) <= 1/10^49 /\ Rabs (MU2 - C1) <= 1/10^49 /\ MU3 = MU1 - 1 /\ MU4 = MU2 - 1 /\ Rabs (MU5 - (MU1 - MU2)) <= 1/10^50.
Proof.
  pose proof sqrt6_bounds as [B1 B2]. splits; try (apply Rabs_le); unfold MU1, MU2, MU3, MU4, MU5, C0, C1; lra.
Qed.

(** what the Newton iterations solve: when the right-hand sides of the transformed systems vanish, the stage values
    z = T w satisfy the Radau IIA equations z_i = h sum_j a_ij k_j, up to the rounding of the constants *)
Theorem C72_stage_equations : forall (k w : nat -> R) h, h <> 0 -> (forall i, (i < 3)%nat -> app3 TI_ k i = app3 L_ w i / h) ->
  forall i, (i < 3)%nat -> Rabs (app3 T_ w i - h * app3 A_ k i) <= 2/10^19 * (s3 (fun j => Rabs (w j)) + Rabs h * s3 (fun j => Rabs (k j))).
Proof.
  intros k w h Hh HR i Hi.
  assert (K : forall j, (j < 3)%nat -> h * app3 (mul3 T_ TI_) k j = app3 (mul3 T_ L_) w j).
  { intros j Hj. pose proof (HR 0%nat ltac:(lia)) as H0. pose proof (HR 1%nat ltac:(lia)) as H1. pose proof (HR 2%nat ltac:(lia)) as H2.
    transitivity (h * app3 T_ (app3 TI_ k) j); [unfold app3, mul3, s3; ring|].
    unfold app3 at 1. unfold s3. rewrite H0, H1, H2. unfold app3, mul3, s3. field. exact Hh. }
  set (D1 := fun j => mul3 A_ (mul3 T_ L_) i j - T_ i j). set (D2 := fun j m => mul3 T_ TI_ j m - (if Nat.eqb j m then 1 else 0)).
  assert (E : app3 T_ w i - h * app3 A_ k i = - s3 (fun j => D1 j * w j) + h * s3 (fun j => A_ i j * s3 (fun m => D2 j m * k m))).
  { assert (X : app3 (mul3 A_ (mul3 T_ L_)) w i = h * s3 (fun j => A_ i j * app3 (mul3 T_ TI_) k j)).
    { transitivity (s3 (fun j => A_ i j * app3 (mul3 T_ L_) w j)); [unfold app3, mul3, s3; ring|].
      unfold s3 at 1 2. rewrite <- !K by lia. ring. }
    assert (Y : s3 (fun j => D1 j * w j) = app3 (mul3 A_ (mul3 T_ L_)) w i - app3 T_ w i) by (unfold D1, app3, s3; ring).
    assert (Z : s3 (fun j => A_ i j * s3 (fun m => D2 j m * k m)) = s3 (fun j => A_ i j * app3 (mul3 T_ TI_) k j) - app3 A_ k i).
    { unfold D2, app3, s3. cbn [Nat.eqb]. ring. }
    rewrite Y, Z, X. ring. }
  rewrite E.
  assert (B1 : Rabs (s3 (fun j => D1 j * w j)) <= 5/10^20 * s3 (fun j => Rabs (w j))).
  { assert (P : forall j, (j < 3)%nat -> Rabs (D1 j * w j) <= 5/10^20 * Rabs (w j)).
    { intros j Hj. rewrite Rabs_mult. apply Rmult_le_compat_r; [apply Rabs_pos|]. apply C72_transformation; assumption. }
    pose proof (P 0%nat ltac:(lia)). pose proof (P 1%nat ltac:(lia)). pose proof (P 2%nat ltac:(lia)). unfold s3.
    eapply Rle_trans; [apply Rabs_triang|]. pose proof (Rabs_triang (D1 0%nat * w 0%nat) (D1 1%nat * w 1%nat)). lra. }
  assert (B2 : forall j, (j < 3)%nat -> Rabs (s3 (fun m => D2 j m * k m)) <= 5/10^20 * s3 (fun m => Rabs (k m))).
  { intros j Hj. assert (P : forall m, (m < 3)%nat -> Rabs (D2 j m * k m) <= 5/10^20 * Rabs (k m)).
    { intros m Hm. rewrite Rabs_mult. apply Rmult_le_compat_r; [apply Rabs_pos|]. apply C72_inverse; assumption. }
    pose proof (P 0%nat ltac:(lia)). pose proof (P 1%nat ltac:(lia)). pose proof (P 2%nat ltac:(lia)). unfold s3.
    eapply Rle_trans; [apply Rabs_triang|]. pose proof (Rabs_triang (D2 j 0%nat * k 0%nat) (D2 j 1%nat * k 1%nat)). lra. }
  assert (B3 : forall j, (j < 3)%nat -> Rabs (A_ i j) <= 1).
  { pose proof sqrt6_bounds as [S1 S2]. intros j Hj. apply Rabs_le. set (r := sqrt 6) in *. clear -Hi Hj S1 S2.
    destruct i as [|[|[|i]]]; try lia; (destruct j as [|[|[|j]]]; try lia); cbn [A_]; fold r; clearbody r; lra. }
  set (K3 := s3 (fun m => Rabs (k m))) in *. assert (K0 : 0 <= K3) by (unfold K3, s3; pose proof (Rabs_pos (k 0%nat)); pose proof (Rabs_pos (k 1%nat)); pose proof (Rabs_pos (k 2%nat)); lra).
  assert (W0 : 0 <= s3 (fun j => Rabs (w j))) by (unfold s3; pose proof (Rabs_pos (w 0%nat)); pose proof (Rabs_pos (w 1%nat)); pose proof (Rabs_pos (w 2%nat)); lra).
  assert (B4 : forall j, (j < 3)%nat -> Rabs (A_ i j * s3 (fun m => D2 j m * k m)) <= 5/10^20 * K3).
  { intros j Hj. rewrite Rabs_mult. replace (5/10^20 * K3) with (1 * (5/10^20 * K3)) by ring. apply Rmult_le_compat; try apply Rabs_pos; auto. }
  assert (B5 : Rabs (s3 (fun j => A_ i j * s3 (fun m => D2 j m * k m))) <= 15/10^20 * K3).
  { pose proof (B4 0%nat ltac:(lia)). pose proof (B4 1%nat ltac:(lia)). pose proof (B4 2%nat ltac:(lia)). unfold s3 at 1. eapply Rle_trans; [apply Rabs_triang|].
    pose proof (Rabs_triang (A_ i 0%nat * s3 (fun m => D2 0%nat m * k m)) (A_ i 1%nat * s3 (fun m => D2 1%nat m * k m))). lra. }
  eapply Rle_trans; [apply Rabs_triang|]. rewrite Rabs_Ropp, Rabs_mult.
  assert (B6 : Rabs h * Rabs (s3 (fun j => A_ i j * s3 (fun m => D2 j m * k m))) <= Rabs h * (15/10^20 * K3)) by (apply Rmult_le_compat_l; [apply Rabs_pos|exact B5]).
  pose proof (Rmult_le_pos _ _ (Rabs_pos h) K0). set (a := s3 (fun j => Rabs (w j))) in *. set (b := Rabs h) in *. nra.
Qed.
Example C72_ex : (* y' = lambda y with the exact stages has such k and w: the zero solution is not the only one *)
  exists k w h, h <> 0 /\ k 0%nat = 1 /\ (forall i, (i < 3)%nat -> app3 TI_ k i = app3 L_ w i / h).
Proof.
  set (D := ALPHA * ALPHA + BETA * BETA).
  assert (DP : 0 < D) by (unfold D, ALPHA, BETA; lra). assert (G : 0 < GAMMA) by (unfold GAMMA; lra).
  exists (fun _ => 1). set (t := app3 TI_ (fun _ => 1)).
  exists (fun i => match i with 0%nat => t 0%nat / GAMMA | 1%nat => (ALPHA * t 1%nat + BETA * t 2%nat) / D | _ => (ALPHA * t 2%nat - BETA * t 1%nat) / D end), 1.
  splits; [lra|reflexivity|]. intros i Hi. fold t. clearbody t. unfold app3, s3.
  destruct i as [|[|[|i]]]; try lia; cbn [L_]; [set (tt := t 0%nat)|set (t1 := t 1%nat); set (t2 := t 2%nat)|set (t1 := t 1%nat); set (t2 := t 2%nat)]; unfold D in *; field; lra.
Qed.

(* ------------------------------------------------------------------ *)
(** * Dense output and stepsize *)

Lemma tab_inv {A} n (g : nat -> res A) r d : tabulate n g = Ok r -> length r = n /\ forall m, (m < n)%nat -> g m = Ok (nth m r d).
Proof.
  unfold tabulate. enough (G : forall l r, tab l g = Ok r -> length r = length l /\ forall m d', (m < length l)%nat -> g (nth m l d') = Ok (nth m r d)).
  { intros E. apply G in E as (L & E). rewrite seq_length in *. split; [exact L|]. intros m Hm. specialize (E m 0%nat Hm). now rewrite seq_nth in E by exact Hm. }
  clear r. induction l as [|a l IH]; intros r E; cbn [tab] in E; [injection E as <-; split; [reflexivity|intros m d' Hm; cbn in Hm; lia]|].
  apply bind_ok in E as (x & Ex & E). apply bind_ok in E as (t & Et & E). injection E as <-. destruct (IH _ Et) as (L & IH'). split; [cbn; now rewrite L|].
  intros [|m] d' Hm; cbn [nth] in *; [exact Ex|]. apply IH'. cbn in Hm. lia.
Qed.
Ltac vg H := let L := fresh "L" in apply (vget_ok_inv _ _ _ 0) in H as (L & H).
Lemma tab2_inv n g a b r : tab2 n g a b = Ok r -> length r = n /\ forall m, (m < n)%nat -> nth m r 0 = g (nth m a 0) (nth m b 0).
Proof.
  intros E. apply (tab_inv _ _ _ 0) in E as (L & E). split; [exact L|]. intros m Hm. specialize (E m Hm).
  apply bind_ok in E as (x & Ex & E). apply bind_ok in E as (y & Ey & E). injection E as <-. vg Ex. vg Ey. congruence.
Qed.
Lemma tab3_inv n g a b c r : tab3 n g a b c = Ok r -> length r = n /\ forall m, (m < n)%nat -> nth m r 0 = g (nth m a 0) (nth m b 0) (nth m c 0).
Proof.
  intros E. apply (tab_inv _ _ _ 0) in E as (L & E). split; [exact L|]. intros m Hm. specialize (E m Hm).
  apply bind_ok in E as (x & Ex & E). apply bind_ok in E as (y & Ey & E). apply bind_ok in E as (z & Ez & E). injection E as <-. vg Ex. vg Ey. vg Ez. congruence.
Qed.
Lemma tab4_ok n g a b c d : length a = n -> length b = n -> length c = n -> length d = n ->
  tab4 n g a b c d = Ok (map (fun m => g (nth m a 0) (nth m b 0) (nth m c 0) (nth m d 0)) (seq 0 n)).
Proof.
  intros La Lb Lc Ld. unfold tab4. apply tabulate_ok. intros m Hm.
  rewrite (vget_ok a m 0), (vget_ok b m 0), (vget_ok c m 0), (vget_ok d m 0) by (unfold vec in *; lia). reflexivity.
Qed.

Section Thm.
Variable ndim : nat.
Variable f : R -> vec -> res vec.
Variable powf : R -> R -> R.
Variables J FR FC : Type.
Variable jac : R -> vec -> res J.
Variable factorize_real : J -> R -> res FR.
Variable factorize_comp : J -> R -> R -> res FC.
Variable solve_real : FR -> vec -> res vec.
Variable solve_comp : FC -> vec -> vec -> res (vec * vec).
Variable mass : option (vec -> res vec).
Variable has_jacobian concurrent : bool.
Variable write_after : option nat.
Notation radau := (radau J FR FC).
Notation step := (radau_step ndim f powf J FR FC jac factorize_real factorize_comp solve_real solve_comp mass has_jacobian concurrent write_after).
Notation accept := (radau_accept ndim f powf J FR FC).
Notation reject := (radau_reject powf J FR FC).
Notation dense := (radau_dense ndim J FR FC).
Notation ops := (radau_ops ndim f powf J FR FC jac factorize_real factorize_comp solve_real solve_comp mass has_jacobian concurrent write_after).

Lemma initialize_shape s w x y s' w' : radau_initialize ndim f J FR FC s w x y = Ok (s', w') ->
  exists k sc, s' = set_acc k sc s /\ w' = add_n_function 1 w /\ f x y = Ok k.
Proof.
  unfold radau_initialize. intros E. apply bind_ok in E as (sc & _ & E). apply bind_ok in E as (k & Ek & E). injection E as <- <-. now exists k, sc.
Qed.

Lemma accept_shape s w x y h s' w' x' y' : accept s w x y h = Ok (s', w', x', y') ->
  x' = x + h /\ length y' = ndim /\ (forall m, (m < ndim)%nat -> nth m y' 0 = nth m y 0 + nth m (r_z2 s) 0) /\
  length (r_yc0 s') = ndim /\ length (r_yc1 s') = ndim /\ length (r_yc2 s') = ndim /\
  (forall m, (m < ndim)%nat -> let z0 := nth m (r_z0 s) 0 in let z1 := nth m (r_z1 s) 0 in let z2 := nth m (r_z2 s) 0 in
     nth m (r_yc0 s') 0 = (z1 - z2) / MU4 /\ nth m (r_yc1 s') 0 = ((z0 - z1) / MU5 - nth m (r_yc0 s') 0) / MU3 /\
     nth m (r_yc2 s') 0 = nth m (r_yc1 s') 0 - ((z0 - z1) / MU5 - z0 / MU1) / MU2) /\
  let p := r_params s in let cand := radau_candidate powf p w h in let good := Rleb (r_theta s) (theta_max (p_radau5 p)) in
  let reuse := good && Rleb (c1h (p_radau5 p)) (cand / h) && Rleb (cand / h) (c2h (p_radau5 p)) in
  r_params s' = p /\ r_reuse_all s' = reuse /\ r_computed s' = false /\ r_reuse_jac s' = (if reuse then false else good) /\
  r_jj s' = r_jj s /\ r_real s' = r_real s /\ r_comp s' = r_comp s /\
  w' = add_n_function 1 (if reuse then w else set_w_h_new cand w).
Proof.
  unfold radau_accept. intros E. cbv zeta in E.
  apply bind_ok in E as (y2 & Ey & E). apply bind_ok in E as (c0 & E0 & E). apply bind_ok in E as (c1 & E1' & E). apply bind_ok in E as (c2 & E2' & E). apply bind_ok in E as ([s2 w2] & Ei & E).
  injection E as <- <- <- <-. apply initialize_shape in Ei as (k & sc & -> & -> & _). apply tab2_inv in Ey as (L & Ey), E0 as (L0 & E0). apply tab3_inv in E1' as (L1 & E1'), E2' as (L2 & E2').
  cbn. splits; auto.
Qed.

(** Radau5's dense output after an accepted step from (x, y) of size h: at the end of the step it gives the new solution,
    at the second stage the stage value (both exactly); at the first stage and at the beginning of the step it gives the stage
    value and the old solution up to the rounding of a constant *)
Theorem C71_dense : forall s w x y h s' w' x' y', accept s w x y h = Ok (s', w', x', y') -> 0 < h ->
  let z0 m := nth m (r_z0 s) 0 in let z1 m := nth m (r_z1 s) 0 in let z2 m := nth m (r_z2 s) 0 in
  exists a b c d, dense s' x' x' y' h = Ok a /\ dense s' (x + MU2 * h) x' y' h = Ok b /\ dense s' (x + MU1 * h) x' y' h = Ok c /\ dense s' x x' y' h = Ok d /\
  forall m, (m < ndim)%nat -> nth m a 0 = nth m y' 0 /\ nth m b 0 = nth m y 0 + z1 m /\
    Rabs (nth m c 0 - (nth m y 0 + z0 m)) <= 1/10^49 * Rabs (z0 m - z1 m) /\
    Rabs (nth m d 0 - nth m y 0) <= 1/10^49 * Rabs (z0 m - z1 m).
Proof.
  intros s w x y h s' w' x' y' E Hh z0 z1 z2. apply accept_shape in E as (-> & Ly & EY & L0 & L1 & L2 & HC & _).
  assert (D : forall xo, x <= xo <= x + h -> dense s' xo (x + h) y' h = Ok (map (fun m => nth m y' 0 + (xo - (x + h)) / h * (nth m (r_yc0 s') 0 + ((xo - (x + h)) / h - MU4) * (nth m (r_yc1 s') 0 + ((xo - (x + h)) / h - MU3) * nth m (r_yc2 s') 0))) (seq 0 ndim))).
  { intros xo Hx. unfold radau_dense. rewrite (proj2 (Rleb_true _ _)), (proj2 (Rleb_true _ _)) by lra. cbn [andb assert_ bind]. cbv zeta. rewrite tab4_ok by auto. reflexivity. }
  assert (M1 : 0 < MU1 < 1) by (unfold MU1; lra). assert (M2 : 0 < MU2 < 1) by (unfold MU2; lra). destruct C72_abscissae as (_ & _ & Q3 & Q4 & Q5).
  assert (M5 : MU5 <> 0) by (unfold MU5; lra). assert (M3 : MU3 <> 0) by (unfold MU3; lra). assert (M4 : MU4 <> 0) by (unfold MU4; lra).
  do 4 eexists. splits; try (apply D; nra). intros m Hm. rewrite !nth_tabmap by exact Hm. destruct (HC m Hm) as (H0 & H1 & H2). rewrite (EY m Hm).
  fold (z0 m) (z1 m) (z2 m) in *. set (yc0 := nth m (r_yc0 s') 0) in *. set (yc1 := nth m (r_yc1 s') 0) in *. set (yc2 := nth m (r_yc2 s') 0) in *. set (ym := nth m y 0).
  set (a := z0 m) in *. set (b := z1 m) in *. set (c := z2 m) in *. clearbody a b c ym.
  set (A := (a - b) / MU5) in *. assert (HA : a - b = MU5 * A) by (unfold A; field; exact M5).
  assert (F0 : b - c = MU4 * yc0) by (rewrite H0; field; exact M4). assert (F1 : MU3 * yc1 = A - yc0) by (rewrite H1; field; exact M3).
  assert (F2 : MU1 * MU2 * yc2 = MU1 * MU2 * yc1 - MU1 * A + a) by (rewrite H2; field; lra).
  replace ((x + h - (x + h)) / h) with 0 by (field; lra). replace ((x + MU2 * h - (x + h)) / h) with MU4 by (rewrite Q4; field; lra).
  replace ((x + MU1 * h - (x + h)) / h) with MU3 by (rewrite Q3; field; lra). replace ((x - (x + h)) / h) with (-1) by (field; lra).
  set (delta := MU1 - MU2 - MU5).
  assert (DB : Rabs delta <= 1/10^50) by (unfold delta; rewrite <- Rabs_Ropp; replace (- (MU1 - MU2 - MU5)) with (MU5 - (MU1 - MU2)) by ring; exact Q5).
  assert (B5 : Rabs A <= 3 * Rabs (a - b)).
  { unfold A, Rdiv. rewrite Rabs_mult, Rmult_comm. apply Rmult_le_compat_r; [apply Rabs_pos|]. rewrite Rabs_inv, Rabs_left by (unfold MU5; lra). replace 3 with (/ (1 / 3)) by field. apply Rinv_le_contravar; unfold MU5; lra. }
  pose proof (Rabs_pos (a - b)) as PA.
  splits.
  - ring.
  - replace (MU4 * (yc0 + (MU4 - MU4) * (yc1 + (MU4 - MU3) * yc2))) with (MU4 * yc0) by ring. lra.
  - replace (ym + c + MU3 * (yc0 + (MU3 - MU4) * (yc1 + (MU3 - MU3) * yc2)) - (ym + a)) with (delta * A).
    + rewrite Rabs_mult. assert (X : Rabs delta * Rabs A <= 1/10^50 * (3 * Rabs (a - b))) by (apply Rmult_le_compat; auto using Rabs_pos). lra.
    + replace (MU3 * (yc0 + (MU3 - MU4) * (yc1 + (MU3 - MU3) * yc2))) with (MU3 * yc0 + (MU3 - MU4) * (MU3 * yc1)) by ring. rewrite F1.
      replace (MU3 - MU4) with (MU5 + delta) by (unfold delta; rewrite Q3, Q4; ring). unfold delta.
      replace a with (b + MU5 * A) by lra. replace c with (b - MU4 * yc0) by lra. rewrite Q3, Q4. ring.
  - replace (ym + c + -1 * (yc0 + (-1 - MU4) * (yc1 + (-1 - MU3) * yc2)) - ym) with (delta * A).
    + rewrite Rabs_mult. assert (X : Rabs delta * Rabs A <= 1/10^50 * (3 * Rabs (a - b))) by (apply Rmult_le_compat; auto using Rabs_pos). lra.
    + replace (-1 - MU4) with (- MU2) by (rewrite Q4; ring). replace (-1 - MU3) with (- MU1) by (rewrite Q3; ring).
      replace (-1 * (yc0 + - MU2 * (yc1 + - MU1 * yc2))) with (- yc0 + MU2 * yc1 - MU1 * MU2 * yc2) by ring. rewrite F2.
      replace (- yc0 + MU2 * yc1 - (MU1 * MU2 * yc1 - MU1 * A + a)) with (- yc0 - MU2 * (MU3 * yc1) + MU1 * A - a) by (rewrite Q3; ring). rewrite F1. unfold delta.
      replace a with (b + MU5 * A) by lra. replace c with (b - MU4 * yc0) by lra. rewrite Q4. ring.
Qed.

(** the divisor of the stepsize stays between m_min and m_max *)
Lemma div_range p w : m_min (p_step p) <= m_max (p_step p) -> m_min (p_step p) <= radau_div powf p w <= m_max (p_step p).
Proof.
  intros H. unfold radau_div. cbv zeta. set (z := powf _ _ / _). split; [apply Rmax_l|]. apply Rmax_lub; [exact H|apply Rmin_l].
Qed.
Lemma over (h lo d hi : R) : 0 < h -> 0 < lo -> lo <= d <= hi -> h / hi <= h / d <= h / lo.
Proof. intros Hh Hl Hd. split; apply Rmult_le_compat_l; try lra; apply Rinv_le_contravar; lra. Qed.

Lemma candidate_range p w h : step_ok (p_step p) -> 0 < h -> h / m_max (p_step p) <= radau_candidate powf p w h <= h / m_min (p_step p).
Proof.
  intros (S1 & S2 & _) Hh. pose proof (div_range p w ltac:(lra)) as D. unfold radau_candidate. cbv zeta. destruct (_ && _); apply over; try lra.
  set (fac := Rmax (m_min (p_step p)) _). split; [eapply Rle_trans; [apply D|apply Rmax_l]|]. apply Rmax_lub; [apply D|]. unfold fac. apply Rmax_lub; [lra|apply Rmin_l].
Qed.

(** accept: the candidate is between h / m_max and h / m_min; either it is the new stepsize, or it is between c1h h and c2h h
    and the stepsize is left as it is (and the factorization is kept) *)
Theorem C56_radau5_accept : forall s w x y h s' w' x' y', accept s w x y h = Ok (s', w', x', y') -> step_ok (p_step (r_params s)) -> 0 < h ->
  exists cand, h / m_max (p_step (r_params s)) <= cand <= h / m_min (p_step (r_params s)) /\
    ((w_h_new w' = cand /\ r_reuse_all s' = false) \/
     (w_h_new w' = w_h_new w /\ c1h (p_radau5 (r_params s)) * h <= cand <= c2h (p_radau5 (r_params s)) * h /\ r_reuse_all s' = true)).
Proof.
  intros s w x y h s' w' x' y' E SO Hh. apply accept_shape in E as (_ & _ & _ & _ & _ & _ & _ & E). cbv zeta in E. destruct E as (_ & RA & _ & _ & _ & _ & _ & ->).
  exists (radau_candidate powf (r_params s) w h). split; [now apply candidate_range|]. set (cand := radau_candidate _ _ _ _) in *.
  rewrite RA. destruct (Rleb (r_theta s) _ && Rleb _ (cand / h) && Rleb (cand / h) _) eqn:B; [right|left; now split].
  apply andb_true_iff in B as (B & B3). apply andb_true_iff in B as (B1 & B2). apply Rleb_true in B2, B3.
  assert (CE : cand = cand / h * h) by (field; lra). splits; [reflexivity| | |reflexivity]; rewrite CE at 1; apply Rmult_le_compat_r; lra.
Qed.

(** reject: between h / m_max and h / m_min; if m_max >= 1, a rejected step gets smaller *)
Theorem C56_radau5_reject : forall s w h s' w', reject s w h = (s', w') -> step_ok (p_step (r_params s)) -> 0 < h ->
  h / m_max (p_step (r_params s)) <= w_h_new w' <= h / m_min (p_step (r_params s)) /\
  (1 <= m_max (p_step (r_params s)) -> 1 <= powf (w_rel_error w) 0.25 -> (1 <= n_iteration_max (p_newton (r_params s)))%nat -> w_h_new w' <= h).
Proof.
  intros s w h s' w' E (S1 & S2 & S3 & S4 & _) Hh. injection E as <- <-. cbn [w_h_new set_w_h_new]. pose proof (div_range (r_params s) w ltac:(lra)) as D. split; [apply over; lra|].
  intros H1 HP HN. apply Rle_trans with (h / 1); [|lra]. apply Rmult_le_compat_l; [lra|]. apply Rinv_le_contravar; [lra|]. unfold radau_div. cbv zeta.
  eapply Rle_trans; [|apply Rmax_r]. apply Rmin_glb; [exact H1|]. set (fac := Rmin _ _).
  assert (N1 : 0 < INR (1 + 2 * n_iteration_max (p_newton (r_params s)))) by (apply lt_0_INR; lia).
  assert (N2 : 0 < INR (n_iterations (w_stats w) + 2 * n_iteration_max (p_newton (r_params s)))) by (apply lt_0_INR; lia).
  assert (F1 : 0 < fac) by (unfold fac; apply Rmin_glb_lt; [lra|]; apply Rdiv_lt_0_compat; [apply Rmult_lt_0_compat; lra|exact N2]).
  assert (F2 : fac <= 1) by (eapply Rle_trans; [apply Rmin_l|lra]).
  apply (Rmult_le_reg_r fac); [exact F1|]. unfold Rdiv. rewrite Rmult_assoc, Rinv_l, Rmult_1_r by lra. lra.
Qed.

(** a parameter that validate accepts: with m_max = 1/2 every rejected step is followed by a step at least twice as large *)
Theorem C56_radau5_rejected_grows_refuted : forall s w h s' w', reject s w h = (s', w') -> 0 < h ->
  m_min (p_step (r_params s)) = 1/10 -> m_max (p_step (r_params s)) = 1/2 -> 2 * h <= w_h_new w'.
Proof.
  intros s w h s' w' E Hh M1 M2. injection E as <- <-. cbn [w_h_new set_w_h_new]. pose proof (div_range (r_params s) w ltac:(lra)) as D. rewrite M1, M2 in D.
  replace (2 * h) with (h / (1 / 2)) by field. apply over with (lo := 1/10); lra.
Qed.

(** with the default limits the stepsize may grow eight times although m_max is 5: the limits of Radau5 are reciprocal *)
Theorem C56_radau5_range_refuted : forall s w x y h s' w' x' y', accept s w x y h = Ok (s', w', x', y') -> 0 < h ->
  m_min (p_step (r_params s)) = 1/8 -> m_max (p_step (r_params s)) = 5 -> m_safety (p_step (r_params s)) = 9/10 ->
  use_pred_control (p_radau5 (r_params s)) = false -> c2h (p_radau5 (r_params s)) <= 2 ->
  n_iterations (w_stats w) = 1%nat -> (1 <= n_iteration_max (p_newton (r_params s)))%nat -> 0 <= powf (w_rel_error w) 0.25 <= 1/100 ->
  w_h_new w' = 8 * h /\ m_max (p_step (r_params s)) * h < w_h_new w'.
Proof.
  intros s w x y h s' w' x' y' E Hh M1 M2 M3 PC C2 NI NM HP. apply accept_shape in E as (_ & _ & _ & _ & _ & _ & _ & E). cbv zeta in E. destruct E as (_ & _ & _ & _ & _ & _ & _ & ->).
  assert (CD : radau_candidate powf (r_params s) w h = 8 * h).
  { unfold radau_candidate, radau_div. rewrite PC, NI, M1, M2, M3. cbn [andb]. cbv zeta. set (N := INR (1 + 2 * n_iteration_max (p_newton (r_params s)))).
    assert (N1 : 0 < N) by (apply lt_0_INR; lia). replace (9 / 10 * N / N) with (9/10) by (field; lra). rewrite (Rmin_left (9/10) (9/10)) by lra.
    rewrite Rmax_left; [field|]. eapply Rle_trans; [apply Rmin_r|]. lra. }
  rewrite CD. replace (8 * h / h) with 8 by (field; lra). rewrite (proj2 (Rleb_false 8 (c2h (p_radau5 (r_params s))))) by lra. rewrite andb_false_r. cbn [w_h_new set_w_h_new add_n_function on_stats set_w_stats].
  rewrite M2. split; [reflexivity|lra].
Qed.
End Thm.
