(** C59 for Radau5: what a later call to solve inherits from an earlier one; and C56 (no growth after a rejection). *)
From Coq Require Import Lra.
From Verif Require Import Radau_Model Ode_Base_Thm Ode_Drv_Thm Ode_Sim_Thm Erk_Thm Erk_Ctl_Thm Radau_Thm.
Local Open Scope nat_scope.

Section Hist.
Variable ndim : nat.
Variable f : R -> vec -> res vec.
Variable powf : R -> R -> R.
Variables J FR FC : Type.
Variable jac : R -> vec -> res J.
Variable factorize_real : J -> R -> res FR.
Variable factorize_comp : J -> R -> R -> res FC.
Variable solve_real : FR -> vec -> res vec.
Variable solve_comp : FC -> vec -> vec -> res (vec * vec).
Variable mass : option (vec -> res vec).
Variable has_jacobian concurrent : bool.
Variable write_after : option nat.
Notation radau := (radau J FR FC).
Notation step := (radau_step ndim f powf J FR FC jac factorize_real factorize_comp solve_real solve_comp mass has_jacobian concurrent write_after).
Notation accept := (radau_accept ndim f powf J FR FC).
Notation iterate := (radau_iterate ndim f powf J FR FC solve_real solve_comp mass concurrent).
Notation matrices := (radau_matrices ndim J FR FC jac factorize_real factorize_comp has_jacobian concurrent write_after).
Notation ops := (radau_ops ndim f powf J FR FC jac factorize_real factorize_comp solve_real solve_comp mass has_jacobian concurrent write_after).

(** what an iteration leaves alone *)
Definition kept (w : workspace) := (w_follows_reject w, n_accepted (w_stats w), n_jacobian (w_stats w), n_factor (w_stats w)).

Lemma iterate_kept n : forall s w x y h w0 w1 w2 l t e s' w', iterate n s w x y h w0 w1 w2 l t = Ok (e, s', w') ->
  kept w' = kept w /\ r_real s' = r_real s /\ r_comp s' = r_comp s /\ r_jj s' = r_jj s /\ r_params s' = r_params s /\ r_kacc s' = r_kacc s /\ r_scaling s' = r_scaling s /\
  r_reuse_jac s' = r_reuse_jac s /\ r_reuse_all s' = r_reuse_all s /\ r_computed s' = r_computed s /\ r_yc0 s' = r_yc0 s /\ r_yc1 s' = r_yc1 s /\ r_yc2 s' = r_yc2 s.
Proof.
  induction n as [|n IH]; intros s w x y h w0 w1 w2 l t e s' w' E; cbn [radau_iterate] in E; [injection E as <- <- <-; splits; reflexivity|].
  apply bind_ok in E as ([[[[[[a0 a1] a2] z0] z1] z2] ldw] & _ & E). cbv zeta in E.
  repeat match type of E with (if ?c then _ else _) = _ => destruct c end; try (injection E as <- <- <-; splits; reflexivity).
  apply IH in E as (E1 & E). split; [rewrite E1; reflexivity|exact E].
Qed.
Lemma error_kept s w x y h w' : radau_error ndim f J FR FC solve_real mass s w x y h = Ok w' -> kept w' = kept w.
Proof.
  unfold radau_error. intros E. cbv zeta in E. repeat (apply bind_ok in E as (? & _ & E)).
  destruct (Rltb _ 1); [injection E as <-; reflexivity|]. destruct (_ || _); [|injection E as <-; reflexivity].
  repeat (apply bind_ok in E as (? & _ & E)). injection E as <-. reflexivity.
Qed.
Lemma matrices_kept s w x y h s' w' : matrices s w x y h = Ok (s', w') -> w_follows_reject w' = w_follows_reject w /\ n_accepted (w_stats w') = n_accepted (w_stats w).
Proof.
  unfold radau_matrices. intros E. destruct (r_reuse_all s); [injection E as <- <-; split; reflexivity|]. apply bind_ok in E as ([s2 w2] & E2 & E).
  apply bind_ok in E as ([] & _ & E). cbv zeta in E. apply bind_ok in E as ([fr fc] & _ & E). injection E as <- <-.
  change (w_follows_reject (add_factor w2)) with (w_follows_reject w2). change (n_accepted (w_stats (add_factor w2))) with (n_accepted (w_stats w2)).
  destruct (r_reuse_jac s); [injection E2 as <- <-; split; reflexivity|]. destruct (negb _); [|injection E2 as <- <-; split; reflexivity].
  cbv zeta in E2. apply bind_ok in E2 as (j & _ & E2). injection E2 as <- <-. destruct (_ || _); split; reflexivity.
Qed.

(** a step, in four parts *)
Lemma step_inv s w x y h s' w' : step s w x y h = Ok (s', w') -> exists s1 w1 s2 w2 z0 z1 z2 v0 v1 v2 e s3 w3,
  (if n_accepted (w_stats w) =? 0 then radau_initialize ndim f J FR FC s w x y else Ok (s, w)) = Ok (s1, w1) /\ matrices s1 w1 x y h = Ok (s2, w2) /\
  radau_start ndim J FR FC s2 w2 h = Ok (z0, z1, z2, v0, v1, v2) /\
  iterate (n_iteration_max (p_newton (r_params s2))) (set_newton (powf (Rmax (r_eta s2) EPSILON) 0.8) (theta_max (p_radau5 (r_params s2))) z0 z1 z2 s2)
     (on_stats (set_n_iterations 0) (set_w_diverging false w2)) x y h v0 v1 v2 0 0 = Ok (e, s3, w3) /\
  s' = s3 /\ ((e = Diverging /\ w' = w3) \/ (e = Converged /\ radau_error ndim f J FR FC solve_real mass s3 (update_n_iterations_max w3) x y h = Ok w')).
Proof.
  unfold radau_step. intros E. apply bind_ok in E as ([s1 w1] & E1 & E). apply bind_ok in E as ([s2 w2] & E2 & E).
  apply bind_ok in E as ([[[[[z0 z1] z2] v0] v1] v2] & E3 & E). cbv zeta in E. cbn [r_params set_newton] in E. apply bind_ok in E as ([[e s3] w3] & E4 & E).
  exists s1, w1, s2, w2, z0, z1, z2, v0, v1, v2, e, s3, w3. splits; auto; destruct e; try discriminate.
  - apply bind_ok in E as (w4 & _ & E). now injection E as <- <-.
  - now injection E as <- <-.
  - right. split; [reflexivity|]. apply bind_ok in E as (w4 & E5 & E). injection E as <- <-. exact E5.
  - left. injection E as <- <-. auto.
Qed.

Lemma uim w : kept (update_n_iterations_max w) = kept w.
Proof. unfold update_n_iterations_max, on_stats, kept. destruct (_ <? _); reflexivity. Qed.

Theorem C56_radau5_keeps_flag : keeps_flag ops.
Proof.
  split; cbn [m_step m_accept m_reject radau_ops].
  - intros s w x y h s' w' E. apply step_inv in E as (s1 & w1 & s2 & w2 & z0 & z1 & z2 & v0 & v1 & v2 & e & s3 & w3 & E1 & E2 & E3 & E4 & _ & E5).
    apply iterate_kept in E4 as (K & _). apply matrices_kept in E2 as (F2 & _).
    assert (F1 : w_follows_reject w1 = w_follows_reject w).
    { destruct (_ =? 0); [|injection E1 as <- <-; reflexivity]. apply initialize_shape in E1 as (k & sc & _ & -> & _). reflexivity. }
    unfold kept in K. injection K as K _ _ _. destruct E5 as [(_ & ->)|(_ & E5)]; [etransitivity; [exact K|]; etransitivity; [exact F2|exact F1]|].
    apply error_kept in E5. rewrite uim in E5. unfold kept in E5. injection E5 as E5 _ _ _. etransitivity; [exact E5|]. etransitivity; [exact K|]. etransitivity; [exact F2|exact F1].
  - intros s w x y h s' w' x' y' E. apply accept_shape in E as (_ & _ & _ & _ & _ & _ & _ & E). cbv zeta in E. destruct E as (_ & _ & _ & _ & _ & _ & _ & ->).
    destruct (_ && _); reflexivity.
  - intros s w h s' w' E. injection E as <- <-. reflexivity.
Qed.

(* ------------------------------------------------------------------ *)
(** * What is independent of the history *)

Definition before (s1 s2 : radau) (na : nat) : Prop :=
  r_params s1 = r_params s2 /\ r_eta s1 = r_eta s2 /\ r_reuse_jac s1 = r_reuse_jac s2 /\ r_reuse_all s1 = r_reuse_all s2 /\ r_computed s1 = r_computed s2 /\
  (r_reuse_jac s1 || r_reuse_all s1 || r_computed s1 = true -> r_jj s1 = r_jj s2) /\
  (r_reuse_all s1 = true -> r_real s1 = r_real s2 /\ r_comp s1 = r_comp s2) /\
  (na <> 0 -> r_kacc s1 = r_kacc s2 /\ r_scaling s1 = r_scaling s2 /\ r_yc0 s1 = r_yc0 s2 /\ r_yc1 s1 = r_yc1 s2 /\ r_yc2 s1 = r_yc2 s2).
Definition after (s1 s2 : radau) (na : nat) : Prop := exists a b c, s2 = set_yc a b c s1 /\ (na <> 0 -> s1 = s2).

Lemma after_before s1 s2 na : after s1 s2 na -> before s1 s2 na.
Proof. intros (a & b & c & -> & H). unfold before. cbn. splits; auto. intros N. specialize (H N). destruct s1. cbn in *. injection H as -> -> ->. splits; reflexivity. Qed.

Lemma matrices_same s1 s2 w x y h : before s1 s2 (n_accepted (w_stats w)) ->
  rrel (fun p q => snd p = snd q /\ n_accepted (w_stats (snd p)) = n_accepted (w_stats w) /\ before (fst p) (fst q) (n_accepted (w_stats w)) /\
     r_jj (fst p) = r_jj (fst q) /\ r_real (fst p) = r_real (fst q) /\ r_comp (fst p) = r_comp (fst q) /\
     r_kacc (fst p) = r_kacc s1 /\ r_kacc (fst q) = r_kacc s2 /\ r_scaling (fst p) = r_scaling s1 /\ r_scaling (fst q) = r_scaling s2)
   (matrices s1 w x y h) (matrices s2 w x y h).
Proof.
  intros (B1 & B2 & B3 & B4 & B5 & B6 & B7 & B8). unfold radau_matrices. rewrite <- B4. destruct (r_reuse_all s1) eqn:RA.
  { assert (JJ : r_jj s1 = r_jj s2) by (apply B6; rewrite orb_true_r; reflexivity). destruct (B7 eq_refl). constructor. unfold before. cbn. splits; auto; discriminate. }
  apply rrel_bind with (P := fun p q => snd p = snd q /\ n_accepted (w_stats (snd p)) = n_accepted (w_stats w) /\ before (fst p) (fst q) (n_accepted (w_stats w)) /\ r_jj (fst p) = r_jj (fst q) /\
     r_kacc (fst p) = r_kacc s1 /\ r_kacc (fst q) = r_kacc s2 /\ r_scaling (fst p) = r_scaling s1 /\ r_scaling (fst q) = r_scaling s2).
  { rewrite <- B3. destruct (r_reuse_jac s1) eqn:RJ.
    - constructor. cbn. unfold before. cbn. rewrite B6 by reflexivity. splits; auto; try congruence.
    - rewrite <- B5. destruct (r_computed s1) eqn:RC; cbn [negb].
      + assert (JJ : r_jj s1 = r_jj s2) by (apply B6; reflexivity). constructor. unfold before. cbn. splits; auto; try congruence.
      + cbv zeta. rewrite <- B1. apply rrel_bind_same. intros j _. constructor. cbn. unfold before. cbn. splits; auto; try congruence. destruct (use_numerical_jacobian (p_newton (r_params s1)) || negb has_jacobian); reflexivity. }
  intros [a wa] [b wb] (E1 & E2 & E3 & E4 & E5). cbn [fst snd] in *. subst wb. apply rrel_bind_same. intros [] _. cbv zeta. rewrite <- E4. apply rrel_bind_same. intros [fr fc] _.
  constructor. cbn. splits; try apply E5; auto. destruct E3 as (C1' & C2' & C3 & C4 & C5 & C6 & C7 & C8). unfold before. cbn. splits; auto.
Qed.

Lemma set_yc_iterate n : forall a b c s w x y h w0 w1 w2 l t,
  iterate n (set_yc a b c s) w x y h w0 w1 w2 l t = ('(e, s', w') <- iterate n s w x y h w0 w1 w2 l t ;; Ok (e, set_yc a b c s', w')).
Proof.
  induction n as [|n IH]; intros a b c s w x y h w0 w1 w2 l t; cbn [radau_iterate]; [reflexivity|].
  change (radau_correct ndim f J FR FC solve_real solve_comp mass concurrent (set_yc a b c s)) with (radau_correct ndim f J FR FC solve_real solve_comp mass concurrent s).
  cbn [r_z0 r_z1 r_z2 r_params r_theta r_eta set_yc].
  destruct (radau_correct _ _ _ _ _ _ _ _ _ _ _ _ _ _ _ _ _ _ _) as [[[[[[[a0 a1] a2] z0] z1] z2] ldw]|e|]; cbn [bind]; try reflexivity. cbv zeta.
  cbn [r_params set_newton set_yc].
  repeat match goal with |- (if ?cc then _ else _) = _ => destruct cc end; try reflexivity. rewrite <- IH. reflexivity.
Qed.

Lemma step_same s1 s2 w x y h : before s1 s2 (n_accepted (w_stats w)) ->
  rrel (fun p q => snd p = snd q /\ kept (snd p) = (w_follows_reject w, n_accepted (w_stats w), n_jacobian (w_stats (snd p)), n_factor (w_stats (snd p))) /\ after (fst p) (fst q) (n_accepted (w_stats w)))
    (step s1 w x y h) (step s2 w x y h).
Proof.
  intros HB. unfold radau_step.
  apply rrel_bind with (P := fun p q => snd p = snd q /\ n_accepted (w_stats (snd p)) = n_accepted (w_stats w) /\ w_follows_reject (snd p) = w_follows_reject w /\
     before (fst p) (fst q) (n_accepted (w_stats w)) /\ r_kacc (fst p) = r_kacc (fst q) /\ r_scaling (fst p) = r_scaling (fst q)).
  { destruct (Nat.eqb_spec (n_accepted (w_stats w)) 0) as [N|N].
    - unfold radau_initialize. destruct HB as (B1 & HB). rewrite <- B1. apply rrel_bind_same. intros sc _. apply rrel_bind_same. intros k _. constructor. cbn. splits; auto.
      destruct HB as (B2 & B3 & B4 & B5 & B6 & B7 & B8). unfold before. cbn. splits; auto. intros X. now destruct (X N).
    - constructor. cbn. destruct HB as (B1 & B2 & B3 & B4 & B5 & B6 & B7 & B8). destruct (B8 N) as (? & ? & ? & ? & ?). unfold before. splits; auto. }
  intros [a wa] [b wb] (E1 & E2 & E3 & E4 & E5 & E6). cbn [fst snd] in *. subst wb. rewrite <- E2 in E4.
  destruct (matrices a wa x y h) as [[a2 w2]|e|] eqn:EM; pose proof (matrices_same a b wa x y h E4) as MS; rewrite EM in MS; inversion MS as [p [b2 w2'] MP EP EQ|e' EP EQ|EP EQ]; subst; cbn [bind]; try constructor.
  destruct MP as (M1 & M2 & M3 & M4 & M5 & M6 & M7 & M8 & M9 & M10). cbn [fst snd] in *. subst w2'. apply matrices_kept in EM as (KM & _).
  assert (ST : radau_start ndim J FR FC b2 w2 h = radau_start ndim J FR FC a2 w2 h).
  { destruct M3 as (B1 & B2 & B3 & B4 & B5 & B6 & B7 & B8). unfold radau_start. rewrite <- B1. destruct (Nat.eqb_spec (n_accepted (w_stats w2)) 0) as [N|N]; [reflexivity|]. cbn [orb].
    destruct (B8 ltac:(lia)) as (_ & _ & Y0 & Y1 & Y2). now rewrite Y0, Y1, Y2. }
  rewrite ST. apply rrel_bind_same. intros [[[[[z0 z1] z2] v0] v1] v2] _. cbv zeta. cbn [r_params set_newton].
  destruct M3 as (B1 & B2 & B3 & B4 & B5 & B6 & B7 & B8). rewrite <- B1, <- B2.
  set (eta := powf (Rmax (r_eta a2) EPSILON) 0.8). set (th := theta_max (p_radau5 (r_params a2))).
  assert (SY : set_newton eta th z0 z1 z2 b2 = set_yc (r_yc0 b2) (r_yc1 b2) (r_yc2 b2) (set_newton eta th z0 z1 z2 a2)).
  { clearbody eta th. assert (KA : r_kacc b2 = r_kacc a2) by congruence. assert (KS : r_scaling b2 = r_scaling a2) by congruence. clear - B1 B2 B3 B4 B5 M4 M5 M6 KA KS.
    destruct a2, b2. cbn in *. subst. reflexivity. }
  rewrite SY, set_yc_iterate. clear SY. set (w3 := on_stats (set_n_iterations 0) (set_w_diverging false w2)).
  destruct (iterate (n_iteration_max (p_newton (r_params a2))) (set_newton eta th z0 z1 z2 a2) w3 x y h v0 v1 v2 0 0) as [[[e s3] w4]|e|] eqn:EI; cbn [bind]; try constructor.
  apply iterate_kept in EI as (KI & _ & _ & _ & _ & _ & _ & _ & _ & _ & Y0 & Y1 & Y2). cbn [r_yc0 r_yc1 r_yc2 set_newton] in Y0, Y1, Y2.
  assert (AF : after s3 (set_yc (r_yc0 b2) (r_yc1 b2) (r_yc2 b2) s3) (n_accepted (w_stats w))).
  { exists (r_yc0 b2), (r_yc1 b2), (r_yc2 b2). split; [reflexivity|]. intros N. destruct (B8 ltac:(lia)) as (_ & _ & Z0 & Z1 & Z2). rewrite <- Z0, <- Z1, <- Z2, <- Y0, <- Y1, <- Y2. now destruct s3. }
  assert (KW : w_follows_reject w4 = w_follows_reject w /\ n_accepted (w_stats w4) = n_accepted (w_stats w)).
  { unfold kept in KI. injection KI as K1 K2 _ _. split; [etransitivity; [exact K1|]; change (w_follows_reject w3) with (w_follows_reject w2); congruence|etransitivity; [exact K2|]; change (n_accepted (w_stats w3)) with (n_accepted (w_stats w2)); congruence]. }
  destruct e.
  - change (radau_error ndim f J FR FC solve_real mass (set_yc (r_yc0 b2) (r_yc1 b2) (r_yc2 b2) s3)) with (radau_error ndim f J FR FC solve_real mass s3).
    apply rrel_bind_same. intros w5 EE. apply error_kept in EE. rewrite uim in EE. constructor. cbn [fst snd]. splits; auto. unfold kept in *. injection EE as -> -> _ _. destruct KW as (-> & ->). reflexivity.
  - constructor. cbn [fst snd]. splits; auto. unfold kept. destruct KW as (-> & ->). reflexivity.
  - constructor.
Qed.

Lemma accept_same s1 s2 w x y h na : after s1 s2 na ->
  rrel (fun p q => let '(s1', w1, x1, y1) := p in let '(s2', w2, x2, y2) := q in w1 = w2 /\ x1 = x2 /\ y1 = y2 /\ s1' = s2') (accept s1 w x y h) (accept s2 w x y h).
Proof.
  intros (a & b & c & -> & _). unfold radau_accept. cbn [r_params r_z0 r_z1 r_z2 r_theta set_yc]. cbv zeta. repeat (apply rrel_bind_same; intros ? _).
  match goal with |- rrel _ (let (_, _) := ?v in _) _ => destruct v end. constructor. auto.
Qed.

(** Two Radau5 objects with the same parameters and the same estimate of the convergence rate, neither of which holds a Jacobian
    to be reused, give the same run on the same call; work arrays, old solutions, old factorizations play no role *)
Theorem C59_radau5 : forall all_finite P (s1 s2 : radau) w1 w2 y0 x0 x1 h_equal oo,
  r_params s1 = r_params s2 -> r_eta s1 = r_eta s2 ->
  r_reuse_jac s1 = false -> r_reuse_all s1 = false -> r_computed s1 = false -> r_reuse_jac s2 = false -> r_reuse_all s2 = false -> r_computed s2 = false ->
  same_run (fun a b => r_params a = r_params b)
    (solve ops all_finite P ndim s1 w1 y0 x0 x1 h_equal oo) (solve ops all_finite P ndim s2 w2 y0 x0 x1 h_equal oo).
Proof.
  intros all_finite P s1 s2 w1 w2 y0 x0 x1 h_equal oo HP HE A1 A2 A3 B1 B2 B3.
  set (I0 := fun (s1 s2 : radau) (w : workspace) (x : R) (y : vec) => before s1 s2 (n_accepted (w_stats w))).
  set (I1 := fun (s1 s2 : radau) (w : workspace) (x : R) (y : vec) (h : R) => after s1 s2 (n_accepted (w_stats w))).
  assert (SIM : simulation _ _ ops ops I0 I1).
  { split.
    - intros a b w x y h HB. cbn [m_step radau_ops]. eapply rrel_imp; [apply step_same; exact HB|]. intros p q (E1 & E2 & E3). unfold kept in E2. injection E2 as E2 E4. splits; auto.
      unfold I1. rewrite E4. exact E3.
    - intros a b w x y h HA. cbn [m_accept radau_ops]. pose proof (accept_same a b (add_n_accepted w) x y h _ HA) as AS.
      destruct (accept a (add_n_accepted w) x y h) as [[[[a' wa] xa] ya]|e|] eqn:Ea; destruct (accept b (add_n_accepted w) x y h) as [[[[b' wb] xb] yb]|e2|]; inversion AS; subst; constructor.
      match goal with H : _ /\ _ |- _ => destruct H as (-> & -> & -> & ->) end. splits; auto.
      + exact (kf_accept C56_radau5_keeps_flag _ _ _ _ _ _ _ _ _ Ea).
      + intros w' _ _. unfold I0, before. splits; auto.
    - intros a b w x y h w' HA _ N. unfold I0. rewrite N. now apply after_before.
    - intros a b w x y h w' HA _ N. cbn [m_reject radau_ops]. unfold radau_reject. cbn [fst snd]. pose proof (after_before _ _ _ HA) as HB. unfold I0, I1 in *.
      rewrite (proj1 HB). split; [reflexivity|]. cbn [w_stats set_w_h_new]. rewrite N. exact HB.
    - intros a b w x y HB N xo xx yy hh. cbn [m_dense radau_ops]. unfold radau_dense. destruct HB as (_ & _ & _ & _ & _ & _ & _ & HB). destruct (HB N) as (_ & _ & -> & -> & ->). reflexivity. }
  assert (START : forall w, at_start w -> I0 s1 s2 w x0 y0).
  { intros w (N & _). unfold I0, before. rewrite A1, A2, A3, N. splits; auto; try congruence. discriminate. }
  eapply rrel_imp; [apply (solve_same _ _ _ _ all_finite P _ _ SIM)|].
  - intros _ _. exact START.
  - intros _ _. cbn [m_enable_dense radau_ops]. constructor. exact START.
  - intros p q (Q1 & Q2 & (w & x & y & Q3)). splits; auto. apply Q3.
Qed.

(** After a run the flag "reuse Jacobian and factorization" may be on.  The next call then computes neither in its first step: it uses the
    matrices of the old problem.  A fresh object computes both *)
Theorem C59_radau5_refuted : forall (s : radau) w x y h s' w', n_accepted (w_stats w) = 0 -> step s w x y h = Ok (s', w') ->
  (r_reuse_all s = true -> n_jacobian (w_stats w') = n_jacobian (w_stats w) /\ n_factor (w_stats w') = n_factor (w_stats w) /\ r_real s' = r_real s /\ r_comp s' = r_comp s) /\
  (r_reuse_all s = false -> r_reuse_jac s = false -> r_computed s = false -> n_jacobian (w_stats w') = n_jacobian (w_stats w) + 1 /\ n_factor (w_stats w') = n_factor (w_stats w) + 1).
Proof.
  intros s w x y h s' w' N E. apply step_inv in E as (s1 & w1 & s2 & w2 & z0 & z1 & z2 & v0 & v1 & v2 & e & s3 & w3 & E1 & E2 & E3 & E4 & -> & E5).
  rewrite N in E1. cbn [Nat.eqb] in E1. apply initialize_shape in E1 as (k & sc & -> & -> & _). apply iterate_kept in E4 as (K & R1 & R2 & _). cbn [r_real r_comp set_newton] in R1, R2.
  assert (KW : n_jacobian (w_stats w') = n_jacobian (w_stats w2) /\ n_factor (w_stats w') = n_factor (w_stats w2)).
  { unfold kept in K. injection K as _ _ K3 K4. destruct E5 as [(_ & ->)|(_ & E5)]; [split; [exact K3|exact K4]|]. apply error_kept in E5. rewrite uim in E5. unfold kept in E5. injection E5 as _ _ J3 J4.
    split; [etransitivity; [exact J3|exact K3]|etransitivity; [exact J4|exact K4]]. }
  destruct KW as (-> & ->). unfold radau_matrices in E2. cbn [r_reuse_all r_reuse_jac r_computed set_acc] in E2. split.
  - intros RA. rewrite RA in E2. injection E2 as <- <-. cbn in *. splits; auto.
  - intros RA RJ RC. rewrite RA, RJ, RC in E2. cbn [negb] in E2. cbv zeta in E2. apply bind_ok in E2 as ([s4 w4] & E6 & E2). apply bind_ok in E6 as (j & _ & E6). injection E6 as <- <-.
    apply bind_ok in E2 as ([] & _ & E2). apply bind_ok in E2 as ([fr fc] & _ & E2). injection E2 as <- <-. destruct (_ || _); cbn; split; reflexivity.
Qed.

(** the flag is really left on, whenever the last accepted step suggests a similar stepsize *)
Theorem C59_radau5_flag_left_on : forall (s : radau) w x y h s' w' x' y', accept s w x y h = Ok (s', w', x', y') ->
  (r_reuse_all s' = true <-> (r_theta s <= theta_max (p_radau5 (r_params s)) /\
     c1h (p_radau5 (r_params s)) <= radau_candidate powf (r_params s) w h / h <= c2h (p_radau5 (r_params s)))%R).
Proof.
  intros s w x y h s' w' x' y' E. apply accept_shape in E as (_ & _ & _ & _ & _ & _ & _ & E). cbv zeta in E. destruct E as (_ & -> & _).
  rewrite !andb_true_iff, !Rleb_true. tauto.
Qed.
End Hist.

Print Assumptions C59_radau5.
Print Assumptions C59_radau5_refuted.
Print Assumptions C71_dense.
Print Assumptions C72_stage_equations.
