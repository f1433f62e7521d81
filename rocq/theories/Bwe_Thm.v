(** C60: forward and backward Euler; C59 for the two Euler methods. *)
From Coq Require Import Lra.
From Verif Require Import Bwe_Model Ode_Base_Thm Ode_Drv_Thm Ode_Sim_Thm Erk_Thm.
Local Open Scope nat_scope.

(** * Specification *)

(** the residual of the backward Euler equation  z = y + h k *)
Definition residual (z y k : vec) (h : R) : vec := map (fun i => nth i z 0 - nth i y 0 - h * nth i k 0)%R (seq 0 (length y)).
(** root mean square of v, component i measured in units of abs + rel |y_i| *)
Definition scaled_rms (v y : vec) (abs rel : R) : R :=
  if length y =? 0 then 0%R else sqrt (rsum (length y) (fun i => (nth i v 0 / (abs + rel * Rabs (nth i y 0)))²)%R / INR (length y)).

(** * The loops *)
Section Bwe.
Variable ndim : nat.
Variable f : R -> vec -> res vec.
Variables M F : Type.
Variable jac : R -> R -> vec -> res M.
Variable factorize : M -> res F.
Variable lsolve : F -> vec -> res vec.
Variable has_jacobian : bool.
Hypothesis FD : keeps_dim ndim f.
Local Notation step := (bwe_step ndim f M F jac factorize lsolve has_jacobian).
Local Notation iterate := (bwe_iterate ndim f M F jac factorize lsolve has_jacobian).

Lemma residual_ok z y k h r : length z = ndim -> length y = ndim -> length k = ndim -> length r = ndim -> bwe_residual ndim z y k h r = Ok (residual z y k h).
Proof.
  intros Lz Ly Lk Lr. unfold bwe_residual. set (g := fun i => (nth i z 0 - nth i y 0 - h * nth i k 0)%R).
  rewrite <- (filled_0 g r). replace (residual z y k h) with (filled ndim g r).
  - apply (for_range_det (fun i => filled i g r)); [lia|]. intros i Hi.
    rewrite !(vget_ok _ _ 0%R) by lia. cbn [bind]. apply filled_next. lia.
  - unfold residual. rewrite Ly, <- Lr. apply filled_all.
Qed.

Lemma rms_ok v y a r : length v = length y -> vec_rms_scaled v y a r = Ok (scaled_rms v y a r).
Proof.
  intros L. unfold vec_rms_scaled, scaled_rms, assert_. rewrite L, Nat.eqb_refl. cbn [bind]. destruct (length y =? 0); [reflexivity|].
  set (g := fun i => ((nth i v 0 / (a + r * Rabs (nth i y 0)))²)%R).
  rewrite (for_range_det (fun i => rsum i g)); [reflexivity|lia|]. intros i Hi. rewrite !(vget_ok _ _ 0%R) by lia. cbn [bind rsum]. f_equal. f_equal.
  unfold g, Rsqr. set (d := (a + r * Rabs (nth i y 0))%R). unfold Rdiv. rewrite Rinv_mult. ring.
Qed.

Lemma residual_length z y k h : length (residual z y k h) = length y.
Proof. unfold residual. now rewrite map_length, seq_length. Qed.

Lemma uim w : n_iterations (w_stats (update_n_iterations_max w)) = n_iterations (w_stats w) /\
  n_iterations_max (w_stats (update_n_iterations_max w)) = Nat.max (n_iterations_max (w_stats w)) (n_iterations (w_stats w)) /\
  w_follows_reject (update_n_iterations_max w) = w_follows_reject w.
Proof.
  unfold update_n_iterations_max, on_stats. cbn [w_stats set_w_stats]. destruct (Nat.ltb_spec (n_iterations_max (w_stats w)) (n_iterations (w_stats w))); cbn; splits; try reflexivity; lia.
Qed.

Definition lens (s : bwe F) : Prop := length (b_w s) = ndim /\ length (b_r s) = ndim.

Lemma iterate_ok x y h : length y = ndim -> forall n s w s' w', lens s -> iterate n s w x y h = Ok (true, s', w') ->
  lens s' /\ b_params s' = b_params s /\ (exists k, f (x + h)%R (b_w s') = Ok k /\
    (scaled_rms (residual (b_w s') y k h) y (t_abs (p_tol (b_params s))) (t_rel (p_tol (b_params s))) < t_newton (p_tol (b_params s)))%R) /\
  n_iterations (w_stats w) + 1 <= n_iterations (w_stats w') <= n_iterations (w_stats w) + n /\
  n_iterations_max (w_stats w') = n_iterations_max (w_stats w).
Proof.
  intros Ly n. induction n as [|n IH]; intros s w s' w' (L1 & L2) E; [discriminate|]. cbn [bwe_iterate] in E. cbv zeta in E.
  apply bind_ok in E as (k & Ek & E). pose proof (FD _ _ _ L1 Ek) as Lk. rewrite residual_ok in E by assumption. cbn [bind] in E.
  rewrite rms_ok in E by apply residual_length. cbn [bind] in E. destruct (Rltb _ _) eqn:ER.
  - injection E as <- <-. cbn. unfold lens. cbn. rewrite residual_length. splits; auto; try lia. exists k. split; [exact Ek|]. now apply Rltb_true.
  - apply bind_ok in E as ([fact w2] & Ef & E). apply bind_ok in E as (dy & Ed & E). apply bind_ok in E as (yn & Ey & E).
    apply IH in E.
    + destruct E as (A1 & A2 & A3 & A4 & A5). cbn [b_params] in *.
      assert (W2 : n_iterations (w_stats w2) = n_iterations (w_stats w) + 1 /\ n_iterations_max (w_stats w2) = n_iterations_max (w_stats w)).
      { destruct (negb _ || _); [|injection Ef as _ <-; split; reflexivity]. apply bind_ok in Ef as (kk & _ & Ef). apply bind_ok in Ef as (fa & _ & Ef). injection Ef as _ <-. destruct (_ || _); split; reflexivity. }
      destruct W2 as (W2 & W3). cbn in A4. splits; auto; try lia. rewrite A5. exact W3.
    + unfold lens. cbn. rewrite residual_length. split; [|exact Ly]. unfold vupdate in Ey. destruct (length dy =? length (b_w s)) eqn:EL; [|discriminate].
      injection Ey as <-. apply Nat.eqb_eq in EL. rewrite map_length, combine_length. lia.
Qed.

(** * C60 *)

(** a step that returns Ok leaves a trial solution that satisfies the backward Euler equation up to the tolerance;
    [b_w] is what the caller receives from accept; the iterations are counted *)
Theorem C60_bweuler : forall s w x y h s' w', lens s -> length y = ndim -> step s w x y h = Ok (s', w') ->
  let tol := p_tol (b_params s) in
  (exists k, f (x + h)%R (b_w s') = Ok k /\ (scaled_rms (residual (b_w s') y k h) y (t_abs tol) (t_rel tol) < t_newton tol)%R) /\
  (forall w2, bwe_accept F s' w2 x y h = Ok (s', w2, (x + h)%R, b_w s')) /\
  1 <= n_iterations (w_stats w') <= n_iteration_max (p_newton (b_params s)) /\
  n_iterations_max (w_stats w') = Nat.max (n_iterations_max (w_stats w)) (n_iterations (w_stats w')) /\
  lens s' /\ b_params s' = b_params s.
Proof.
  intros s w x y h s' w' LS Ly E. unfold bwe_step in E. apply bind_ok in E as (w0 & E0 & E). unfold vcopy in E0. destruct (_ =? _); [|discriminate]. injection E0 as <-.
  apply bind_ok in E as ([[ok s1] w1] & E1 & E). cbv zeta in E. destruct ok; [|discriminate]. injection E as <- <-.
  apply iterate_ok in E1; [|exact Ly|destruct LS; split; [exact Ly|assumption]]. cbn [b_params] in E1. destruct E1 as (A1 & A2 & A3 & A4 & A5).
  cbn in A4, A5. cbv zeta. splits; auto.
  - intros w2. unfold bwe_accept, vcopy. destruct A1 as (L1 & _). rewrite L1, Ly, Nat.eqb_refl. reflexivity.
  - rewrite (proj1 (uim w1)). lia.
  - rewrite (proj1 (uim w1)). lia.
  - rewrite (proj1 (uim w1)), (proj1 (proj2 (uim w1))). lia.
Qed.

(** with the full Newton method and a linear solver that solves the linearized equation exactly, a system that is affine in y
    takes at most two iterations *)
Definition exact_correction (x h : R) : Prop :=
  forall z k, length z = ndim -> f x z = Ok k -> exists kk fa, jac h x z = Ok kk /\ factorize kk = Ok fa /\
    forall r, length r = ndim -> exists dy k', lsolve fa r = Ok dy /\ length dy = ndim /\
      f x (map (fun p => fst p + snd p)%R (combine z dy)) = Ok k' /\
      forall i, i < ndim -> (h * (nth i k' 0 - nth i k 0) - nth i dy 0)%R = nth i r 0%R.

Theorem C60_affine : forall s w x y h, lens s -> length y = ndim -> p_modified_newton (b_params s) = false ->
  2 <= n_iteration_max (p_newton (b_params s)) -> (0 < t_newton (p_tol (b_params s)))%R ->
  (exists k, f (x + h)%R y = Ok k) -> exact_correction (x + h)%R h -> exists s' w', step s w x y h = Ok (s', w') /\ n_iterations (w_stats w') <= 2.
Proof.
  intros s w x y h (L1 & L2) Ly HM HN HT (k & Ek) EX. unfold bwe_step, vcopy. rewrite L1, Ly, Nat.eqb_refl. cbn [bind b_params].
  destruct (n_iteration_max (p_newton (b_params s))) as [|[|n]] eqn:EN; [lia..|]. cbn [bwe_iterate b_params b_w b_r b_dy b_fact]. cbv zeta.
  rewrite Ek. cbn [bind]. pose proof (FD _ _ _ Ly Ek) as Lk. rewrite residual_ok by assumption. cbn [bind]. rewrite rms_ok by apply residual_length. cbn [bind].
  destruct (Rltb _ _).
  { cbn [bind]. eexists; eexists; split; [reflexivity|]. rewrite (proj1 (uim _)). cbn. lia. }
  rewrite HM. cbn [negb orb]. destruct (EX y k Ly Ek) as (kk & fa & Ej & Ef & SOL). rewrite Ej. cbn [bind]. rewrite Ef. cbn [bind].
  destruct (SOL (residual y y k h) ltac:(now rewrite residual_length)) as (dy & k' & Ed & Ld & Ek' & EQ). rewrite Ed. cbn [bind]. unfold vupdate. rewrite Ld, Ly, Nat.eqb_refl. cbn [bind b_w b_params b_r].
  replace (map (fun p => fst p + 1 * snd p)%R (combine y dy)) with (map (fun p => fst p + snd p)%R (combine y dy)) by (apply map_ext; intros; ring).
  rewrite Ek'. cbn [bind]. assert (Ln : length (map (fun p => fst p + snd p)%R (combine y dy)) = ndim) by (rewrite map_length, combine_length; lia).
  pose proof (FD _ _ _ Ln Ek') as Lk'. rewrite residual_ok by (try assumption; rewrite residual_length; assumption). cbn [bind].
  rewrite rms_ok by apply residual_length. cbn [bind].
  assert (Z : scaled_rms (residual (map (fun p => fst p + snd p)%R (combine y dy)) y k' h) y (t_abs (p_tol (b_params s))) (t_rel (p_tol (b_params s))) = 0%R).
  { unfold scaled_rms. destruct (length y =? 0) eqn:E0; [reflexivity|]. apply Nat.eqb_neq in E0.
    replace (rsum (length y) _) with 0%R; [unfold Rdiv; rewrite Rmult_0_l; apply sqrt_0|]. symmetry.
    assert (T : forall n, n <= length y -> rsum n (fun i => ((nth i (residual (map (fun p => fst p + snd p) (combine y dy)) y k' h) 0 / (t_abs (p_tol (b_params s)) + t_rel (p_tol (b_params s)) * Rabs (nth i y 0)))²)%R) = 0%R).
    { induction n0 as [|n0 IHn]; intros Hn; [reflexivity|]. cbn [rsum]. rewrite IHn by lia.
      replace (nth n0 (residual (map (fun p => fst p + snd p)%R (combine y dy)) y k' h) 0%R) with 0%R; [unfold Rsqr, Rdiv; ring|].
      symmetry. unfold residual. rewrite nth_tabmap by lia.
      rewrite (nth_indep _ 0%R ((fun p : R * R => fst p + snd p)%R (0%R, 0%R))) by (rewrite map_length, combine_length; lia).
      rewrite (map_nth (fun p : R * R => fst p + snd p)%R), combine_nth by lia. cbn [fst snd].
      specialize (EQ n0 ltac:(lia)). unfold residual in EQ. rewrite nth_tabmap in EQ by lia. lra. }
    apply T. lia. }
  rewrite Z, (proj2 (Rltb_true _ _)) by exact HT. cbn [bind]. eexists; eexists; split; [reflexivity|]. rewrite (proj1 (uim _)). destruct (_ || _); cbn; lia.
Qed.

(** * C59: the Euler methods *)

(** with the full Newton method nothing of an earlier use is visible: any two solver objects with the same parameters and
    sizes give the same run *)
Definition same_bwe (s1 s2 : bwe F) : Prop := b_params s1 = b_params s2 /\ lens s1 /\ lens s2 /\ p_modified_newton (b_params s1) = false.

Lemma iterate_same x y h : length y = ndim -> forall n s1 s2 w, same_bwe s1 s2 -> b_w s1 = b_w s2 ->
  rrel (fun p q => fst (fst p) = fst (fst q) /\ snd p = snd q /\ same_bwe (snd (fst p)) (snd (fst q)) /\ b_w (snd (fst p)) = b_w (snd (fst q)) /\
        w_follows_reject (snd p) = w_follows_reject w)
    (iterate n s1 w x y h) (iterate n s2 w x y h).
Proof.
  intros Ly n. induction n as [|n IH]; intros s1 s2 w (P & (L1 & L2) & (L3 & L4) & HM) HW.
  { constructor. cbn. splits; auto. unfold same_bwe, lens. auto. }
  cbn [bwe_iterate]. cbv zeta. rewrite <- HW, <- P. apply rrel_bind_same. intros k Ek. pose proof (FD _ _ _ L1 Ek) as Lk.
  rewrite (residual_ok (b_w s1) y k h (b_r s1)), (residual_ok (b_w s1) y k h (b_r s2)) by congruence. cbn [bind].
  apply rrel_bind_same. intros rn _. destruct (Rltb _ _).
  { constructor. cbn. splits; auto. unfold same_bwe, lens. cbn. rewrite residual_length. splits; auto; congruence. }
  rewrite HM. cbn [negb orb].
  match goal with |- rrel _ (bind ?ee _) _ => destruct ee as [[fact w2]|e|] eqn:Ef; cbn [bind]; [|constructor|constructor] end.
  assert (FW : w_follows_reject w2 = w_follows_reject w).
  { apply bind_ok in Ef as (kk & _ & Ef). apply bind_ok in Ef as (fa & _ & Ef). injection Ef as _ <-. destruct (_ || _); reflexivity. }
  apply rrel_bind_same. intros dy _. apply rrel_bind_same. intros yn Ey.
  assert (Ln : length yn = ndim).
  { unfold vupdate in Ey. destruct (_ =? _) eqn:EL; [|discriminate]. injection Ey as <-. apply Nat.eqb_eq in EL. rewrite map_length, combine_length. lia. }
  eapply rrel_imp; [apply IH; [|reflexivity]|].
  - unfold same_bwe, lens. cbn. rewrite residual_length. auto.
  - intros p q (A1 & A2 & A3 & A4 & A5). splits; auto. rewrite A5. exact FW.
Qed.

Theorem C59_bweuler_full_newton : forall all_finite P s1 s2 w1 w2 y0 x0 x1 h_equal oo, same_bwe s1 s2 ->
  same_run (fun a b => b_params a = b_params b)
    (solve (bwe_ops ndim f M F jac factorize lsolve has_jacobian) all_finite P ndim s1 w1 y0 x0 x1 h_equal oo)
    (solve (bwe_ops ndim f M F jac factorize lsolve has_jacobian) all_finite P ndim s2 w2 y0 x0 x1 h_equal oo).
Proof.
  intros all_finite P s1 s2 w1 w2 y0 x0 x1 h_equal oo HS.
  set (I0 := fun (s1 s2 : bwe F) (w : workspace) (x : R) (y : vec) => same_bwe s1 s2 /\ length y = ndim).
  set (I1 := fun (s1 s2 : bwe F) (w : workspace) (x : R) (y : vec) (h : R) => same_bwe s1 s2 /\ length y = ndim /\ b_w s1 = b_w s2).
  assert (SIM : simulation _ _ (bwe_ops ndim f M F jac factorize lsolve has_jacobian) (bwe_ops ndim f M F jac factorize lsolve has_jacobian) I0 I1).
  { split.
    - intros a b w x y h ((E & (L1 & L2) & (L3 & L4) & HM) & Ly). cbn [m_step bwe_ops]. unfold bwe_step, vcopy. rewrite L1, L3, Ly, Nat.eqb_refl. cbn [bind b_params]. rewrite <- E.
      eapply rrel_bind; [apply (iterate_same x y h Ly); [unfold same_bwe, lens; cbn; auto|reflexivity]|].
      intros [[o1 a1] w1'] [[o2 b1] w2'] (A1 & A2 & A3 & A4 & A5). cbn [fst snd b_params] in *. subst o2 w2'. destruct o1; constructor.
      cbn [fst snd]. splits; [reflexivity|etransitivity; [exact (proj2 (proj2 (uim _)))|exact A5]|]. unfold I1. auto.
    - intros a b w x y h ((E & (L1 & L2) & (L3 & L4) & HM) & Ly & HW). cbn [m_accept bwe_ops]. unfold bwe_accept, vcopy. rewrite L1, L3, Ly, Nat.eqb_refl. cbn [bind]. constructor.
      splits; auto. intros w' _ _. unfold I0, same_bwe, lens. splits; auto.
    - intros a b w x y h w' (A1 & A2 & A3) _ _. split; auto.
    - intros a b w x y h w' (A1 & A2 & A3) _ _. cbn. split; [reflexivity|]. split; auto.
    - intros a b w x y _ _ xo xx yy hh. reflexivity. }
  eapply rrel_imp; [apply (solve_same _ _ _ _ all_finite P _ _ SIM)|].
  - intros Ly _ w _. split; auto.
  - intros _ _. constructor.
  - intros p q (A1 & A2 & (w & x & y & ((A3 & _) & _))). auto.
Qed.

(** forward Euler: y + h f(x, y), and nothing else *)
Theorem C60_fweuler : forall s w x y h k, length (snd s) = ndim -> length y = ndim -> f x y = Ok k ->
  fwe_step f s w x y h = Ok ((k, map (fun i => nth i y 0 + h * nth i k 0)%R (seq 0 ndim)), add_n_function 1 w) /\
  forall k0 z w2, length z = ndim -> fwe_accept (k0, z) w2 x y h = Ok ((k0, z), w2, (x + h)%R, z).
Proof.
  intros [sk sw] w x y h k L1 Ly Ek. cbn [snd] in L1. pose proof (FD _ _ _ Ly Ek) as Lk. unfold vec in *. unfold fwe_step, fwe_accept, vcopy. rewrite Ek. cbn [bind snd].
  rewrite L1, Ly, Lk, Nat.eqb_refl. cbn [andb]. split.
  - repeat f_equal. apply (vec_ext _ _ ndim); [rewrite map_length, combine_length; lia|now rewrite map_length, seq_length|].
    intros m Hm. rewrite nth_tabmap by exact Hm. rewrite (nth_indep _ 0%R ((fun p : R * R => 1 * fst p + h * snd p)%R (0%R, 0%R))) by (rewrite map_length, combine_length; lia).
    rewrite (map_nth (fun p : R * R => 1 * fst p + h * snd p)%R), combine_nth by lia. cbn [fst snd]. ring.
  - intros k0 z w2 Lz. rewrite Lz, Nat.eqb_refl. reflexivity.
Qed.

Theorem C59_fweuler : forall all_finite P s1 s2 w1 w2 y0 x0 x1 h_equal oo, length (snd s1) = ndim -> length (snd s2) = ndim ->
  same_run (fun a b => length (snd a) = length (snd b))
    (solve (fwe_ops ndim f) all_finite P ndim s1 w1 y0 x0 x1 h_equal oo) (solve (fwe_ops ndim f) all_finite P ndim s2 w2 y0 x0 x1 h_equal oo).
Proof.
  intros all_finite P s1 s2 w1 w2 y0 x0 x1 h_equal oo H1 H2.
  set (I0 := fun (s1 s2 : fwe) (w : workspace) (x : R) (y : vec) => length (snd s1) = ndim /\ length (snd s2) = ndim /\ length y = ndim).
  set (I1 := fun (s1 s2 : fwe) (w : workspace) (x : R) (y : vec) (h : R) => s1 = s2 /\ length (snd s1) = ndim /\ length y = ndim).
  assert (SIM : simulation _ _ (fwe_ops ndim f) (fwe_ops ndim f) I0 I1).
  { split.
    - intros a b w x y h (L1 & L2 & Ly). cbn [m_step fwe_ops]. unfold fwe_step. apply rrel_bind_same. intros k Ek. pose proof (FD _ _ _ Ly Ek) as Lk.
      rewrite L1, L2, Ly, Lk, Nat.eqb_refl. cbn [andb]. constructor. cbn [fst snd]. splits; try reflexivity. unfold I1. cbn [snd]. splits; auto. rewrite map_length, combine_length. lia.
    - intros a b w x y h (<- & L1 & Ly). cbn [m_accept fwe_ops]. unfold fwe_accept, vcopy. rewrite L1, Ly, Nat.eqb_refl. cbn [bind]. constructor. splits; auto. intros w' _ _. unfold I0. auto.
    - intros a b w x y h w' (<- & L1 & Ly) _ _. unfold I0. auto.
    - intros a b w x y h w' (<- & L1 & Ly) _ _. cbn. split; [reflexivity|]. unfold I0. auto.
    - intros a b w x y _ _ xo xx yy hh. reflexivity. }
  eapply rrel_imp; [apply (solve_same _ _ _ _ all_finite P _ _ SIM)|].
  - intros Ly _ w _. unfold I0. auto.
  - intros _ _. constructor.
  - intros p q (A1 & A2 & (w & x & y & A3 & A4 & _)). splits; auto. etransitivity; [exact A3|symmetry; exact A4].
Qed.
End Bwe.

(** * The modified Newton method *)

(** y' = max(0, x - 1): a scalar problem; the matrix h J - I is the number -1, its factorization itself *)
Definition late1 (x : R) (y : vec) : res vec := Ok [Rmax 0 (x - 1)].
Definition number_solve (a : R) (r : vec) : res vec := Ok (map (fun v => v / a)%R r).
Definition bwe_params (modified : bool) : params :=
  mkParams BwEuler (mkTol 1 0 (1 / 2)) (mkNewton 7 false) (mkStep 0 0 0 0 1 10 0) (mkStiff false false false 0 0 0 None)
    modified (mkRadau false 0 0 0 false) (mkErkP 0 0).
Local Notation late_ops := (bwe_ops 1 late1 R R (fun _ _ _ => Ok (-1)%R) Ok number_solve true).

Lemma late_dim1 : keeps_dim 1 late1.
Proof. intros x y k _ H. injection H as <-. reflexivity. Qed.
Lemma rms_1 a y : scaled_rms [a] [y] 1 0 = Rabs a.
Proof.
  unfold scaled_rms. cbn [length Nat.eqb rsum nth INR]. replace ((0 + (a / (1 + 0 * Rabs y))²) / 1)%R with (a²)%R by (unfold Rsqr; field). apply sqrt_Rsqr_abs.
Qed.

(** one iteration from z: either it converges or it needs the correction r / (-1) *)
Lemma late_iterate n m s w x y z h : b_params s = bwe_params m -> length (b_r s) = 1 -> b_w s = [z] -> let r := (z - y - h * Rmax 0 (x + h - 1))%R in
  (r = 0%R -> exists w', bwe_iterate 1 late1 R R (fun _ _ _ => Ok (-1)%R) Ok number_solve true (S n) s w x [y] h =
     Ok (true, mkBwe (bwe_params m) [Rmax 0 (x + h - 1)]%R [z] [r] (b_dy s) (b_fact s), w') /\ n_accepted (w_stats w') = n_accepted (w_stats w)) /\
  (Rabs r = 1%R -> (b_fact s = None -> m = true -> n_accepted (w_stats w) <> 0 ->
      bwe_iterate 1 late1 R R (fun _ _ _ => Ok (-1)%R) Ok number_solve true (S n) s w x [y] h = Err "the function factorize must be called before solve") /\
     (b_fact s = Some (-1)%R \/ n_accepted (w_stats w) = 0 -> exists w', n_accepted (w_stats w') = n_accepted (w_stats w) /\
      bwe_iterate 1 late1 R R (fun _ _ _ => Ok (-1)%R) Ok number_solve true (S n) s w x [y] h =
      bwe_iterate 1 late1 R R (fun _ _ _ => Ok (-1)%R) Ok number_solve true n (mkBwe (bwe_params m) [Rmax 0 (x + h - 1)]%R [z + 1 * (r / -1)]%R [r] [r / -1]%R (Some (-1)%R)) w' x [y] h)).
Proof.
  intros P Lr Hz r. cbn [bwe_iterate]. cbv zeta. rewrite Hz, P. change (late1 (x + h) [z]) with (Ok (A := vec) [Rmax 0 (x + h - 1)])%R. cbn [bind].
  rewrite !(residual_ok 1) by (try reflexivity; exact Lr). change (residual [z] [y] [Rmax 0 (x + h - 1)] h) with [r]. cbn [bind].
  rewrite !rms_ok by reflexivity. cbn [bind b_params bwe_params p_tol t_abs t_rel t_newton]. rewrite !rms_1.
  split; [intros ->; rewrite Rabs_R0, (proj2 (Rltb_true 0 (1 / 2))) by lra; eexists; split; reflexivity|].
  intros Ha. rewrite Ha, (proj2 (Rltb_false 1 (1 / 2))) by lra. change (p_modified_newton (bwe_params m)) with m. split.
  - intros Hf -> Hn. cbn [negb orb]. change (n_accepted (w_stats (add_n_function 1 (add_iteration w)))) with (n_accepted (w_stats w)).
    destruct (Nat.eqb_spec (n_accepted (w_stats w)) 0); [contradiction|]. cbn [bind]. rewrite Hf. reflexivity.
  - intros Hf. change (n_accepted (w_stats (add_n_function 1 (add_iteration w)))) with (n_accepted (w_stats w)).
    destruct (negb m || (n_accepted (w_stats w) =? 0)) eqn:EB.
    + cbn [bind]. change (number_solve (-1) [r]) with (Ok (A := vec) [r / -1])%R. cbn [map bind vupdate length Nat.eqb combine fst snd]. eexists. split; [|reflexivity]. reflexivity.
    + apply orb_false_iff in EB as (EB & EB2). apply Nat.eqb_neq in EB2. destruct Hf as [Hf|Hf]; [|contradiction]. rewrite Hf. cbn [bind]. change (number_solve (-1) [r]) with (Ok (A := vec) [r / -1])%R. cbn [map bind vupdate length Nat.eqb combine fst snd].
      eexists. split; [|reflexivity]. reflexivity.
Qed.

Lemma max_left a : (a <= 0)%R -> Rmax 0 a = 0%R.
Proof. intros. apply Rmax_left. lra. Qed.
Lemma max_right a : (0 <= a)%R -> Rmax 0 a = a.
Proof. intros. apply Rmax_right. lra. Qed.

(** a step in which nothing happens before x = 1 *)
Lemma late_quiet m k0 w0 r0 dy0 fa w x y h : length r0 = 1 -> length w0 = 1 -> (x + h <= 1)%R ->
  exists w', m_step late_ops (mkBwe (bwe_params m) k0 w0 r0 dy0 fa) w x [y] h = Ok (mkBwe (bwe_params m) [0%R] [y] [0%R] dy0 fa, w') /\ n_accepted (w_stats w') = n_accepted (w_stats w).
Proof.
  intros Lr Lw Hx. cbn [m_step bwe_ops]. unfold bwe_step, vcopy. cbn [b_w b_params b_k b_r b_dy b_fact]. unfold vec in *. rewrite Lw. cbn [length Nat.eqb bind].
  change (n_iteration_max (p_newton (bwe_params m))) with 7.
  destruct (late_iterate 6 m (mkBwe (bwe_params m) k0 [y] r0 dy0 fa) (on_stats (set_n_iterations 0) w) x y y h) as (Q & _); auto.
  rewrite max_left in Q by lra. destruct Q as (w' & E & N); [lra|]. unfold vec in *. rewrite E. cbn [bind]. eexists. split; [|].
  - cbn [b_dy b_fact]. repeat f_equal. lra.
  - unfold update_n_iterations_max, on_stats. cbn [w_stats set_w_stats]. destruct (_ <? _); exact N.
Qed.

(** a step from x = 1 to x = 2 *)
Lemma late_moving m k0 w0 r0 dy0 fa w y : length r0 = 1 -> length w0 = 1 ->
  (fa = None -> m = true -> n_accepted (w_stats w) <> 0 -> m_step late_ops (mkBwe (bwe_params m) k0 w0 r0 dy0 fa) w 1 [y] 1 = Err "the function factorize must be called before solve") /\
  (fa = Some (-1)%R \/ n_accepted (w_stats w) = 0 -> exists w' k1 r1 dy1, m_step late_ops (mkBwe (bwe_params m) k0 w0 r0 dy0 fa) w 1 [y] 1 = Ok (mkBwe (bwe_params m) k1 [y + 1]%R r1 dy1 (Some (-1)%R), w') /\
      length r1 = 1 /\ n_accepted (w_stats w') = n_accepted (w_stats w)).
Proof.
  intros Lr Lw. cbn [m_step bwe_ops]. unfold bwe_step, vcopy. cbn [b_w b_params b_k b_r b_dy b_fact]. unfold vec in *. rewrite Lw. cbn [length Nat.eqb bind].
  change (n_iteration_max (p_newton (bwe_params m))) with 7.
  destruct (late_iterate 6 m (mkBwe (bwe_params m) k0 [y] r0 dy0 fa) (on_stats (set_n_iterations 0) w) 1 y y 1) as (_ & Q); auto.
  rewrite (max_right (1 + 1 - 1)) in Q by lra. destruct Q as (Q1 & Q2); [rewrite <- Rabs_Ropp; rewrite Rabs_pos_eq; lra|]. unfold vec in *. split.
  - intros Hf Hm Hn. rewrite (Q1 Hf Hm Hn). reflexivity.
  - intros Hf. destruct (Q2 Hf) as (w' & N & E). rewrite E. clear E Q1 Q2.
    destruct (late_iterate 5 m (mkBwe (bwe_params m) [(1 + 1 - 1)%R] [(y + 1 * ((y - y - 1 * (1 + 1 - 1)) / -1))%R] [(y - y - 1 * (1 + 1 - 1))%R] [((y - y - 1 * (1 + 1 - 1)) / -1)%R] (Some (-1)%R)) w' 1 y (y + 1 * ((y - y - 1 * (1 + 1 - 1)) / -1)) 1) as (Q & _); auto.
    rewrite (max_right (1 + 1 - 1)) in Q by lra. destruct Q as (w2 & E & N2); [field|]. unfold vec in *. rewrite E. cbn [bind].
    eexists _, _, _, _. split; [|split].
    + cbn [b_dy b_fact]. replace (y + 1 * ((y - y - 1 * (1 + 1 - 1)) / -1))%R with (y + 1)%R by field. reflexivity.
    + reflexivity.
    + unfold update_n_iterations_max, on_stats. cbn [w_stats set_w_stats]. destruct (_ <? _); cbn in *; congruence.
Qed.

Lemma ceil2 : ceil_usize ((2 - 0) / 1) = 2.
Proof. replace ((2 - 0) / 1)%R with (INR 2) by (cbn; lra). apply ceil_usize_INR. Qed.
Lemma ceil1 : ceil_usize ((2 - 1) / 1) = 1.
Proof. replace ((2 - 1) / 1)%R with (INR 1) by (cbn; lra). apply ceil_usize_INR. Qed.

Lemma late_solve_02 m s w : b_params s = bwe_params m -> lens 1 R s ->
  (b_fact s = None -> m = true -> solve late_ops (fun _ => Ok tt) (bwe_params m) 1 s w [0%R] 0 2 (Some 1%R) None = Err "the function factorize must be called before solve") /\
  (b_fact s = Some (-1)%R -> exists d, solve late_ops (fun _ => Ok tt) (bwe_params m) 1 s w [0%R] 0 2 (Some 1%R) None = Ok (false, d) /\ d_y d = [1%R]).
Proof.
  intros P (L1 & L2). destruct s as [p k0 w0 r0 dy0 fa]. cbn [b_params b_w b_r b_fact] in *. subst p.
  assert (EPS : (0 < EPSILON < 1 / 100)%R) by (split; [apply eps_pos|pose proof eps_small; lra]).
  unfold solve. cbn [length Nat.eqb negb]. rewrite (proj2 (Rleb_false 2 0)) by lra. unfold initial_h. rewrite (proj2 (Rltb_false 1 (10 * EPSILON))) by lra.
  rewrite ceil2. cbn [bind]. replace ((2 - 0) / INR 2)%R with 1%R by (cbn; lra). unfold assert_. rewrite (proj2 (Rltb_true 0 1)) by lra. cbn [bind exec_opt].
  rewrite ceil2. cbn [equal_loop d_s d_w d_x d_y d_h d_out d_tr]. cbv zeta.
  match goal with |- context [m_step late_ops _ ?w1 0%R [0%R] 1%R] => destruct (late_quiet m k0 w0 r0 dy0 fa w1 0 0 1 L2 L1 ltac:(lra)) as (w' & E & N) end.
  rewrite E. cbn [bind]. clear E. cbn [m_accept bwe_ops]. unfold bwe_accept at 1 3. unfold vcopy. cbn [b_w length Nat.eqb bind exec_opt d_s d_w d_x d_y d_h d_out d_tr].
  replace (0 + 1)%R with 1%R by lra.
  match goal with |- context [bwe_step _ _ _ _ _ _ _ _ _ _ _ _ _] => idtac | |- _ => idtac end.
  destruct (late_moving m [0%R] [0%R] [0%R] dy0 fa (add_n_steps (add_n_accepted w')) 0 eq_refl eq_refl) as (Q1 & Q2). cbn [m_step bwe_ops] in Q1, Q2. split.
  - intros Hf Hm. specialize (Q1 Hf Hm). cbn [m_step bwe_ops]. rewrite Q1; [reflexivity|]. cbn. rewrite Nat.add_1_r. discriminate.
  - intros Hf. destruct Q2 as (w2 & k1 & r1 & dy1 & E & _); [now left|]. cbn [m_step bwe_ops]. rewrite E. cbn [bind]. unfold bwe_accept, vcopy. cbn [b_w length Nat.eqb bind exec_opt d_s d_w d_x d_y d_h d_out d_tr last_opt].
    eexists. split; [reflexivity|]. cbn [d_y]. f_equal. lra.
Qed.

(** the first step of the run needs no iteration, so no factorization is made; the next step then asks the linear solver to
    solve without one: the run fails, although the full Newton method (and the modified one, had it been used before) succeeds *)
Theorem C60_modified_newton_refuted :
  solve late_ops (fun _ => Ok tt) (bwe_params true) 1 (bwe_new 1 R (bwe_params true)) workspace_new [0%R] 0 2 (Some 1%R) None
    = Err "the function factorize must be called before solve" /\
  exists d, solve late_ops (fun _ => Ok tt) (bwe_params true) 1 (bwe_new 1 R (bwe_params true)) workspace_new [0%R] 1 2 (Some 1%R) None = Ok (false, d) /\ b_fact (d_s d) = Some (-1)%R /\ b_params (d_s d) = bwe_params true /\ lens 1 R (d_s d).
Proof.
  split; [now apply late_solve_02|].
  assert (EPS : (0 < EPSILON < 1 / 100)%R) by (split; [apply eps_pos|pose proof eps_small; lra]).
  unfold solve. cbn [length Nat.eqb negb]. rewrite (proj2 (Rleb_false 2 1)) by lra. unfold initial_h. rewrite (proj2 (Rltb_false 1 (10 * EPSILON))) by lra.
  rewrite ceil1. cbn [bind]. replace ((2 - 1) / INR 1)%R with 1%R by (cbn; lra). unfold assert_. rewrite (proj2 (Rltb_true 0 1)) by lra. cbn [bind exec_opt].
  rewrite ceil1. cbn [equal_loop d_s d_w d_x d_y d_h d_out d_tr]. cbv zeta.
  match goal with |- context [m_step late_ops _ ?w1 1%R [0%R] 1%R] => destruct (late_moving true [0%R] [0%R] [0%R] [0%R] None w1 0 eq_refl eq_refl) as (_ & Q) end.
  destruct Q as (w2 & k1 & r1 & dy1 & E & L & _); [now right|]. change (bwe_new 1 R (bwe_params true)) with (mkBwe (F := R) (bwe_params true) [0%R] [0%R] [0%R] [0%R] None).
  rewrite E. cbn [bind m_accept bwe_ops]. unfold bwe_accept, vcopy. cbn [b_w length Nat.eqb bind exec_opt d_s d_w d_x d_y d_h d_out d_tr last_opt].
  eexists. split; [reflexivity|]. cbn [d_s b_fact b_params]. splits; auto. split; [reflexivity|exact L].
Qed.

(** hence a solver object that has been used gives another result than a fresh one on the same call *)
Theorem C59_bweuler_modified_newton_refuted : exists d : dstate (bwe R),
  solve late_ops (fun _ => Ok tt) (bwe_params true) 1 (bwe_new 1 R (bwe_params true)) workspace_new [0%R] 1 2 (Some 1%R) None = Ok (false, d) /\
  (exists d', solve late_ops (fun _ => Ok tt) (bwe_params true) 1 (d_s d) (d_w d) [0%R] 0 2 (Some 1%R) None = Ok (false, d')) /\
  (exists e, solve late_ops (fun _ => Ok tt) (bwe_params true) 1 (bwe_new 1 R (bwe_params true)) workspace_new [0%R] 0 2 (Some 1%R) None = Err e).
Proof.
  destruct C60_modified_newton_refuted as (E1 & d & E2 & HF & HP & HL). exists d. split; [exact E2|]. split; [|eexists; exact E1].
  destruct (late_solve_02 true (d_s d) (d_w d) HP HL) as (_ & Q). destruct (Q HF) as (d' & E & _). now exists d'.
Qed.

(** the full Newton method on y' = -3 y: the hypotheses of C60_affine hold *)
Example C60_ex : let f := fun (_ : R) (z : vec) => Ok (map (Rmult (-3)) z) in
  exact_correction 1 f R R (fun h _ _ => Ok (h * (-3) - 1)%R) Ok number_solve (1 / 2) (1 / 2) /\
  exists s' w', bwe_step 1 f R R (fun h _ _ => Ok (h * (-3) - 1)%R) Ok number_solve true (bwe_new 1 R (bwe_params false)) workspace_new 0 [4%R] (1 / 2) = Ok (s', w').
Proof.
  intros f. assert (X : exact_correction 1 f R R (fun h _ _ => Ok (h * (-3) - 1)%R) Ok number_solve (1 / 2) (1 / 2)).
  { intros z k Lz Ek. destruct z as [|z [|? ?]]; try discriminate. injection Ek as <-. eexists _, _. splits; [reflexivity..|].
    intros r Lr. destruct r as [|r [|? ?]]; try discriminate. eexists _, _. splits; [reflexivity..|]. intros i Hi. destruct i as [|i]; [|lia]. cbn. field. }
  split; [exact X|].
  destruct (C60_affine 1 f R R (fun h _ _ => Ok (h * (-3) - 1)%R) Ok number_solve true ltac:(intros ? z k Hz Hk; injection Hk as <-; now rewrite map_length)
     (bwe_new 1 R (bwe_params false)) workspace_new 0 [4%R] (1 / 2)) as (s' & w' & E & _); try reflexivity.
  - split; reflexivity.
  - cbn. lia.
  - cbn. lra.
  - eexists; reflexivity.
  - replace (0 + 1 / 2)%R with (1 / 2)%R by lra. exact X.
  - now exists s', w'.
Qed.

Print Assumptions C60_bweuler.
Print Assumptions C59_bweuler_modified_newton_refuted.
