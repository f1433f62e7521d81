(** C94: predictors, Newton corrections and the recorded residuals of one continuation step. *)
From Verif Require Import RSum Sparse_Model Sparse_Spec Sparse_Lib Sparse_CooProofs Nonlin_Drv_Thm Nonlin_Err_Thm Nonlin_Bord_Thm.
Local Open Scope nat_scope.

(* ------------------------------------------------------------------ *)
(** * Specification *)

(** du solves  Gu du = - c b *)
Definition solves (n : nat) (m : coo R) (c : R) (b : vec) (du : nat -> R) : Prop :=
  forall i, i < n -> sumn n (fun j => ent m i j * du j)%R = (- c * nth i b 0)%R.

(** the sizes of the data of the natural method (solver_natural.rs:63-79 `new`) *)
Definition nsized {F A} (sys : system A) (e : env (natst F) A) : Prop :=
  length (n_ggl (e_s e)) = y_ndim sys /\ coo_valid (n_ggu (e_s e)) /\ c_nrow (n_ggu (e_s e)) = y_ndim sys /\ c_ncol (n_ggu (e_s e)) = y_ndim sys.
(** the natural method holds the factors of the matrix it holds, which the user's function computed
    together with the vector Gl it holds; this is what the flag of the state announces *)
Definition holds {F A} (sys : system A) (lin : linsolver F) (e : env (natst F) A) : Prop :=
  nsized sys e /\
  (n_iter_jac (e_s e) = true -> exists u0 l0 f0, jac_of sys u0 l0 (n_ggu (e_s e)) (n_ggl (e_s e)) /\
     ls_factorize lin f0 (n_ggu (e_s e)) = (n_ls (e_s e), Ok tt)).

(** the lists recorded so far *)
Definition recorded {S A} (e : env S A) : list (list R) :=
  match st_residuals (w_stats (e_w e)) with Some l => l | None => [] end.
Definition iter_total {S A} (e : env S A) : nat := st_n_iteration_total (w_stats (e_w e)).

(* ------------------------------------------------------------------ *)
(** * Vectors *)
Lemma map2_len f u v : length u = length v -> length (map2 f u v) = length u.
Proof. revert v. induction u as [|a u IH]; intros [|b v] H; simpl in *; try lia. rewrite IH; lia. Qed.
Lemma map2_nth f u v i : length u = length v -> i < length u -> nth i (map2 f u v) 0%R = f (nth i u 0%R) (nth i v 0%R).
Proof. revert v i. induction u as [|a u IH]; intros [|b v] [|i] H Hi; simpl in *; try lia; auto. apply IH; lia. Qed.
Lemma vadd_ok w a u b v r : vadd w a u b v = Ok r -> length u = length w /\ length v = length w /\ length r = length w /\
  forall i, i < length w -> nth i r 0%R = (a * nth i u 0 + b * nth i v 0)%R.
Proof.
  unfold vadd. destruct (Nat.eqb_spec (length u) (length w)); [|discriminate]. destruct (Nat.eqb_spec (length v) (length w)); [|discriminate].
  intros H. injection H as <-. splits; auto. rewrite map2_len; lia. intros i Hi. apply map2_nth; lia.
Qed.
Lemma vupdate_ok v a u r : vupdate v a u = Ok r -> length u = length v /\ length r = length v /\
  forall i, i < length v -> nth i r 0%R = (nth i v 0 + a * nth i u 0)%R.
Proof.
  unfold vupdate. destruct (Nat.eqb_spec (length u) (length v)); [|discriminate].
  intros H. injection H as <-. splits; auto. rewrite map2_len; lia. intros i Hi. apply map2_nth; lia.
Qed.
Lemma vcopy_ok v u r : vcopy v u = Ok r -> r = u /\ length u = length v.
Proof. unfold vcopy. destruct (Nat.eqb_spec (length u) (length v)); [|discriminate]. intros H. injection H as <-. auto. Qed.

(* ------------------------------------------------------------------ *)
(** * Natural method *)

Section Natural.
Context {F A : Type} (fin : R -> bool) (cfg : config) (sys : system A) (lin : linsolver F).
Let E := env (natst F) A.
Let n := y_ndim sys.

Section Jac.
Hypothesis Jc : jac_contract sys.

Lemma nat_jac_full (e e' : E) x : nsized sys e -> nat_jac F A cfg sys lin e = (e', Ok x) ->
  eqw (e_w e) (e_w e') /\ jac_of sys (w_u (e_w e)) (w_l (e_w e)) (n_ggu (e_s e')) (n_ggl (e_s e')) /\
  (exists f0, ls_factorize lin f0 (n_ggu (e_s e')) = (n_ls (e_s e'), Ok tt)) /\ nsized sys e' /\ n_iter_jac (e_s e') = n_iter_jac (e_s e).
Proof.
  intros (Z1 & Z2 & Z3 & Z4). unfold nat_jac. intros H. apply mbind_ok in H. destruct H as (e1 & [] & H1 & H). injection H1 as <-. simpl in H.
  apply mbind_ok in H. destruct H as (e2 & [] & H2 & H). simpl in H2.
  destruct (y_jac sys _ _ _ _ _) as [a [[m gl]|z|]] eqn:Ej; try discriminate H2. injection H2 as <-.
  apply mbind_ok in H. destruct H as (e3 & s & H3 & H). apply gets_inv in H3. destruct H3 as [-> ->].
  apply mbind_ok in H. destruct H as (e4 & [] & H4 & H). apply write_matrix_same in H4. subst e4.
  apply mbind_ok in H. destruct H as (e5 & [] & H5 & H). injection H5 as <-. simpl in H.
  destruct (ls_factorize lin _ _) as [f r] eqn:Ef. injection H as <- ->. destruct x.
  destruct (Jc _ _ _ _ _ _ _ _ (coo_reset_valid R _ Z2) eq_refl Z1 Ej) as (J1 & J2 & J3 & J4 & J5 & J6). simpl in J2, J3.
  unfold nsized. simpl. split; [eexists; reflexivity|]. split; [do 4 eexists; split; [|exact Ej]; reflexivity|].
  split; [eexists; exact Ef|]. splits; auto; congruence.
Qed.

Hypothesis Ex : exact_solver lin.

(** The Euler predictor moves u along the solution du/dlambda = - Gu^-1 Gl by the step of lambda. The
    derivatives are the ones factorized last; in the first step of a run they are computed at the
    starting u and at the new lambda. *)
Theorem C94_euler_predictor u l (e e' : E) : c_euler_predictor cfg = true -> holds sys lin e ->
  nat_predict F A cfg sys lin u l e = (e', Ok tt) ->
  holds sys lin e' /\ w_l (e_w e') = w_l (e_w e) /\ w_h (e_w e') = w_h (e_w e) /\
  exists m gl u0 l0, jac_of sys u0 l0 m gl /\ (n_iter_jac (e_s e) = false -> u0 = u /\ l0 = w_l (e_w e)) /\
    length u = n /\ length (w_u (e_w e')) = n /\
    solves n m (w_l (e_w e) - l) gl (fun j => nth j (w_u (e_w e')) 0 - nth j u 0)%R.
Proof.
  intros Hc (Sz & Hd) H. unfold nat_predict in H. rewrite Hc in H.
  apply mbind_ok in H. destruct H as (e1 & s1 & H1 & H). apply gets_inv in H1. destruct H1 as [-> ->].
  apply mbind_ok in H. destruct H as (e2 & [] & H2 & H).
  assert (K : nsized sys e2 /\ w_l (e_w e2) = w_l (e_w e) /\ w_h (e_w e2) = w_h (e_w e) /\ n_iter_jac (e_s e2) = true /\
    exists u0 l0 f0, jac_of sys u0 l0 (n_ggu (e_s e2)) (n_ggl (e_s e2)) /\ ls_factorize lin f0 (n_ggu (e_s e2)) = (n_ls (e_s e2), Ok tt) /\
      (n_iter_jac (e_s e) = false -> u0 = u /\ l0 = w_l (e_w e))).
  { destruct (n_iter_jac (e_s e)) eqn:Ei.
    - apply ret_inv in H2. destruct H2 as [-> _]. destruct (Hd eq_refl) as (u0 & l0 & f0 & J & Ff).
      splits; auto. exists u0, l0, f0. splits; auto; discriminate.
    - apply mbind_ok in H2. destruct H2 as (x1 & w1 & G & H2). apply getw_inv in G. destruct G as [-> ->].
      apply mbind_ok in H2. destruct H2 as (x1 & v & G & H2). apply lift_inv in G. destruct G as [-> G]. apply vcopy_ok in G. destruct G as [-> _].
      apply mbind_ok in H2. destruct H2 as (x1 & [] & G & H2). apply modw_inv in G. subst x1.
      apply mbind_ok in H2. destruct H2 as (x1 & [] & G & H2). apply mods_inv in H2. subst e2.
      apply nat_jac_full in G; [|exact Sz]. destruct G as ([s W] & J & (f0 & Ff) & Sz' & _).
      simpl in *. rewrite W. simpl. splits; auto. exists u, (w_l (e_w e)), f0. splits; auto. }
  destruct K as (Sz2 & L2 & T2 & I2 & u0 & l0 & f0 & J & Ff & Fi).
  apply mbind_ok in H. destruct H as (x1 & w1 & G & H). apply getw_inv in G. destruct G as [-> ->].
  apply mbind_ok in H. destruct H as (x1 & s1 & G & H). apply gets_inv in G. destruct G as [-> ->].
  apply mbind_ok in H. destruct H as (e3 & x & G & H). unfold nat_solve in G.
  apply mbind_ok in G. destruct G as (x1 & s1 & G1 & G). apply gets_inv in G1. destruct G1 as [-> ->].
  apply mbind_ok in G. destruct G as (x1 & y & G1 & G). apply lift_inv in G1. destruct G1 as [-> G1].
  apply mbind_ok in G. destruct G as (x1 & [] & G2 & G). apply mods_inv in G2. subst x1. apply ret_inv in G. destruct G as [-> ->].
  apply mbind_ok in H. destruct H as (x1 & v & G & H). apply lift_inv in G. destruct G as [-> G]. apply modw_inv in H. subst e'.
  pose proof Sz2 as (Z1 & Z2 & Z3 & Z4).
  destruct (Ex _ _ _ _ _ Z2 (eq_trans Z3 (eq_sym Z4)) Ff G1) as (Lx & Sx). rewrite Z3 in Lx, Sx. fold n in Lx, Sx.
  apply vadd_ok in G. destruct G as (V1 & V2 & V3 & V4). simpl in *.
  split. { split; [exact Sz2|]. intros _. exists u0, l0, f0. auto. }
  split; [exact L2|]. split; [exact T2|].
  exists (n_ggu (e_s e2)), (n_ggl (e_s e2)), u0, l0. split; [exact J|]. split; [exact Fi|]. split; [lia|]. split; [lia|].
  intros i Hi. rewrite (sumn_ext n _ (fun j => - (w_l (e_w e) - l) * (ent (n_ggu (e_s e2)) i j * nth j y 0))%R).
  2: { intros j Hj. rewrite V4 by lia. rewrite L2. ring. }
  rewrite sumn_scal, Sx by exact Hi. ring.
Qed.

(** Without it the predicted u is the old one. *)
Theorem C94_simple_predictor u l (e e' : E) : c_euler_predictor cfg = false ->
  nat_predict F A cfg sys lin u l e = (e', Ok tt) -> w_u (e_w e') = u /\ w_l (e_w e') = w_l (e_w e).
Proof.
  intros Hc H. unfold nat_predict in H. rewrite Hc in H. msimp. apply vcopy_ok in H1. destruct H1 as [-> _]. auto.
Qed.

(** An iteration that does not converge moves u by the Newton correction at the same lambda:
    Gu du = - G, with Gu and G at the state before. *)
Theorem C94_newton_natural u l (e e' : E) : nsized sys e ->
  nat_iterate F A fin cfg sys lin u l e = (e', Ok Success) -> converged (w_err (e_w e')) = false ->
  exists m gl g, residual_at sys (w_u (e_w e)) (w_l (e_w e)) g /\ jac_of sys (w_u (e_w e)) (w_l (e_w e)) m gl /\
    length (w_u (e_w e)) = n /\ length (w_u (e_w e')) = n /\ w_l (e_w e') = w_l (e_w e) /\
    solves n m 1 g (fun j => nth j (w_u (e_w e')) 0 - nth j (w_u (e_w e)) 0)%R.
Proof.
  intros Sz H Hn. unfold nat_iterate in H. apply mbind_ok in H. destruct H as (e1 & [] & H1 & H).
  apply call_gg_ok in H1. destruct H1 as (g & s1 & a1 & G1 & W1 & S1).
  apply mbind_ok in H. destruct H as (e2 & bad & H2 & H). unfold an_residual in H2.
  destruct (analyze_residual _ _ _ _ _ _) as [er b] eqn:Er. injection H2 as <- <-. destruct b; [discriminate H|].
  unfold is_conv in H at 1. apply mbind_ok in H. destruct H as (e3 & c & H3 & H).
  apply mbind_ok in H3. destruct H3 as (x3 & w3 & H3 & H3'). apply getw_inv in H3. destruct H3 as [-> ->].
  apply ret_inv in H3'. destruct H3' as [-> ->]. simpl in H.
  assert (RA : residual_at sys (w_u (e_w e)) (w_l (e_w e)) g) by (do 3 eexists; exact G1).
  destruct (converged er) eqn:Ec. { apply ret_inv in H. destruct H as [-> _]. simpl in Hn. congruence. }
  apply mbind_ok in H. destruct H as (e4 & [] & H4 & H).
  apply nat_jac_full in H4. 2: { unfold nsized. simpl. rewrite S1. exact Sz. }
  destruct H4 as ([s4 W4] & J4 & (f0 & F4) & Sz4 & _). simpl in W4, J4. rewrite W1 in W4, J4. simpl in W4, J4.
  apply mbind_ok in H. destruct H as (e5 & [] & H5 & H). injection H5 as <-.
  apply mbind_ok in H. destruct H as (e6 & w & H6 & H). apply getw_inv in H6. destruct H6 as [-> ->].
  apply mbind_ok in H. destruct H as (e7 & x & G & H). unfold nat_solve in G.
  apply mbind_ok in G. destruct G as (x1 & y1 & Q1 & G). apply gets_inv in Q1. destruct Q1 as [-> ->].
  apply mbind_ok in G. destruct G as (x1 & y & Q1 & G). apply lift_inv in Q1. destruct Q1 as [-> Q1].
  apply mbind_ok in G. destruct G as (x1 & [] & G2 & G). apply mods_inv in G2. subst x1. apply ret_inv in G. destruct G as [-> ->].
  simpl in Q1. rewrite W4 in Q1. simpl in Q1.
  pose proof Sz4 as (Z1 & Z2 & Z3 & Z4).
  destruct (Ex _ _ _ _ _ Z2 (eq_trans Z3 (eq_sym Z4)) F4 Q1) as (Lx & Sx). rewrite Z3 in Lx, Sx. fold n in Lx, Sx.
  apply after_solve_ok in H. destruct H as (er' & D & H). simpl in D.
  destruct H as [(C1 & C2 & _) | (C1 & C2 & e8 & e9 & y8 & U1 & U1' & U2 & U3 & _)].
  { rewrite C2 in Hn. simpl in Hn. congruence. }
  apply mbind_ok in U2. destruct U2 as (x1 & w & Q & U2). apply getw_inv in Q. destruct Q as [-> ->].
  apply mbind_ok in U2. destruct U2 as (x1 & w & Q & U2). apply gets_inv in Q. destruct Q as [-> ->].
  apply mbind_ok in U2. destruct U2 as (x1 & v & Q & U2). apply lift_inv in Q. destruct Q as [-> Q].
  apply modw_inv in U2. subst e9. simpl in U3. rewrite U1 in U3, Q. rewrite U1' in Q. simpl in U3, Q. rewrite W4 in U3, Q. simpl in U3, Q.
  apply vupdate_ok in Q. destruct Q as (V1 & V2 & V3). rewrite U3. simpl.
  exists (n_ggu (e_s e4)), (n_ggl (e_s e4)), g. split; [exact RA|]. split; [exact J4|]. split; [lia|]. split; [lia|]. split; [reflexivity|].
  intros i Hi. rewrite (sumn_ext n _ (fun j => -1 * (ent (n_ggu (e_s e4)) i j * nth j y 0))%R).
  2: { intros j Hj. rewrite V3 by lia. ring. }
  rewrite sumn_scal, Sx by exact Hi. ring.
Qed.

(** What the flag announces stays true during a step and after it, whatever its status; the start of a
    run clears the flag. *)
Lemma holds_eq (e e' : E) : e_s e' = e_s e -> holds sys lin e -> holds sys lin e'.
Proof. unfold holds, nsized. intros ->. auto. Qed.
Lemma nat_iterate_holds u l (e e' : E) s : holds sys lin e -> nat_iterate F A fin cfg sys lin u l e = (e', Ok s) -> holds sys lin e'.
Proof.
  intros Hd H. unfold nat_iterate in H. apply mbind_ok in H. destruct H as (e1 & [] & H1 & H).
  apply call_gg_ok in H1. destruct H1 as (g & s1 & a1 & G1 & W1 & S1).
  apply mbind_ok in H. destruct H as (e2 & bad & H2 & H). unfold an_residual in H2.
  destruct (analyze_residual _ _ _ _ _ _) as [er b] eqn:Er. injection H2 as <- <-.
  destruct b. { apply ret_inv in H. destruct H as [-> _]. revert Hd. apply holds_eq. exact S1. }
  apply mbind_ok in H. destruct H as (e3 & c & H3 & H). unfold is_conv in H3.
  apply mbind_ok in H3. destruct H3 as (x3 & w3 & H3 & H3'). apply getw_inv in H3. destruct H3 as [-> ->].
  apply ret_inv in H3'. destruct H3' as [-> ->]. simpl in H.
  destruct (converged er). { apply ret_inv in H. destruct H as [-> _]. revert Hd. apply holds_eq. exact S1. }
  apply mbind_ok in H. destruct H as (e4 & [] & H4 & H).
  apply nat_jac_full in H4. 2: { unfold nsized. simpl. rewrite S1. apply Hd. }
  destruct H4 as (_ & J4 & (f0 & F4) & Sz4 & _).
  assert (Hd4 : holds sys lin e4). { split; [exact Sz4|]. intros _. eauto. }
  match type of H with ?m e4 = _ => assert (K : keeps (holds sys lin) m) end.
  { unfold nat_solve, after_solve, is_conv. kp ltac:(intros; match goal with Q : holds _ _ _ |- _ => exact Q end). }
  specialize (K e4 Hd4). rewrite H in K. exact K.
Qed.
Theorem C94_holds_step u l st (e e' : E) s : holds sys lin e -> nat_step F A fin cfg sys lin u l st e = (e', Ok s) -> holds sys lin e'.
Proof.
  intros Hd H. unfold nat_step in H. apply mbind_ok in H. destruct H as (e1 & [] & H1 & H).
  apply step_begin_ok in H1. destruct H1 as (er & s1 & _ & _ & S1). apply (holds_eq _ e1) in Hd; [|exact S1].
  apply mbind_ok in H. destruct H as (e2 & [] & H2 & H).
  assert (Hd2 : holds sys lin e2).
  { assert (K : keeps (holds sys lin) (nat_lambda F A l st)).
    { unfold nat_lambda. kp ltac:(intros; match goal with Q : holds _ _ _ |- _ => exact Q end). }
    specialize (K e1 Hd). rewrite H2 in K. exact K. }
  apply mbind_ok in H. destruct H as (e3 & [] & H3 & H).
  assert (Hd3 : holds sys lin e3).
  { destruct (c_euler_predictor cfg) eqn:Hc; [exact (proj1 (C94_euler_predictor _ _ _ _ Hc Hd2 H3))|].
    unfold nat_predict in H3. rewrite Hc in H3. msimp. exact Hd2. }
  apply mbind_ok in H. destruct H as (e4 & s4 & H4 & H). apply call_update_w in H4. destruct H4 as [_ S4].
  apply (holds_eq _ e4) in Hd3; [|exact S4].
  destruct (failure s4). { apply ret_inv in H. destruct H as [-> _]. exact Hd3. }
  apply mbind_ok in H. destruct H as (e5 & [] & H5 & H).
  assert (Hd5 : holds sys lin e5).
  { assert (K : keeps (holds sys lin) (push_debug cfg)).
    { unfold push_debug. kp ltac:(intros; match goal with Q : holds _ _ _ |- _ => exact Q end). }
    specialize (K e4 Hd3). rewrite H5 in K. exact K. }
  unfold iterations in H.
  apply mbind_ok in H. destruct H as (e6 & [] & H6 & H). apply modw_inv in H6. subst e6.
  apply mbind_ok in H. destruct H as (e7 & st7 & H7 & H). msimp.
  match type of H7 with mloop ?k 0 ?body _ ?x = _ =>
    assert (T : triple (holds sys lin) (mloop k 0 body Success) (fun _ => holds sys lin) (fun _ => True)) end.
  { apply (t_loop _ (fun _ _ => holds sys lin)); [|auto].
    intros j y _ x Hx. destruct ((_ : M E (bool * status)) x) as [x' [[b z]|m|]] eqn:Ei; auto.
    simpl. assert (G : holds sys lin x'); [|destruct b; exact G].
    apply mbind_ok in Ei. destruct Ei as (x1 & [] & E1 & Ei). apply modst_inv in E1. subst x1.
    apply mbind_ok in Ei. destruct Ei as (x2 & s2 & E2 & Ei). apply nat_iterate_holds in E2; [|exact Hx].
    destruct (failure s2); [msimp; exact E2|]. apply mbind_ok in Ei. destruct Ei as (x3 & w & E3 & Ei). apply getw_inv in E3. destruct E3 as [-> ->].
    apply mbind_ok in Ei. destruct Ei as (x4 & [] & E4 & Ei). apply modst_inv in E4. subst x4.
    destruct (converged _); msimp; exact E2. }
  match type of H7 with mloop ?k 0 ?body _ ?x = _ => specialize (T x Hd5) end.
  rewrite H7 in T. exact T.
Qed.
Theorem C94_holds_start d u l dir (e e' : E) x : nsized sys e -> nat_initialize F A d u l dir e = (e', Ok x) -> holds sys lin e'.
Proof. intros Sz H. unfold nat_initialize in H. msimp. split; [exact Sz|]. simpl. discriminate. Qed.
End Jac.
End Natural.

(* ------------------------------------------------------------------ *)
(** * Arc-length method *)

Section Arclength.
Context {F A : Type} (fin : R -> bool) (cfg : config) (sys : system A) (lin : linsolver F).
Let E := env (arcst F) A.
Let n := y_ndim sys.

(** The predictor is on the line through the old state along the tangent; with theta = 1 (always, but
    for a step that would pass a target of lambda) it is the point at the distance h. *)
Theorem C94_arc_predictor u l st (e e1 e' : E) : arc_inv (e_s e) ->
  arc_lambda F A l st e = (e1, Ok tt) -> arc_predict F A u l st e1 = (e', Ok tt) ->
  let th := a_theta (e_s e') in let h := w_h (e_w e') in
  w_duds (e_w e') = w_duds (e_w e) /\ w_dlds (e_w e') = w_dlds (e_w e) /\
  w_l (e_w e') = (l + (2 - th) * h * w_dlds (e_w e))%R /\
  length (w_u (e_w e')) = length u /\
  (forall i, (i < length u)%nat -> nth i (w_u (e_w e')) 0 = nth i u 0 + th * h * nth i (w_duds (e_w e)) 0)%R /\
  (stop_lambda st = None -> th = a_theta (e_s e) /\
     (stop_u_comp st = None -> h = w_h (e_w e)) /\
     (forall i u1 b, stop_u_comp st = Some (i, u1, b) -> th = 1%R ->
        h = w_h (e_w e) \/ (i < length u /\ nth i (w_u (e_w e')) 0%R = u1))).
Proof.
  intros Inv H1 H2. unfold arc_lambda in H1.
  apply mbind_ok in H1. destruct H1 as (x1 & s & G & H1). apply gets_inv in G. destruct G as [-> ->].
  apply mbind_ok in H1. destruct H1 as (x1 & [] & G & H1). apply modw_inv in G. subst x1.
  assert (K : w_duds (e_w e1) = w_duds (e_w e) /\ w_dlds (e_w e1) = w_dlds (e_w e) /\ arc_inv (e_s e1) /\
    w_l (e_w e1) = (l + (2 - a_theta (e_s e1)) * w_h (e_w e1) * w_dlds (e_w e))%R /\
    (stop_lambda st = None -> a_theta (e_s e1) = a_theta (e_s e) /\ w_h (e_w e1) = w_h (e_w e))).
  { destruct (stop_lambda st) as [[l1 b]|].
    - apply mbind_ok in H1. destruct H1 as (x1 & w & G & H1). apply getw_inv in G. destruct G as [-> ->].
      destruct (_ || _); [|msimp; simpl; splits; auto; discriminate].
      msimp. simpl. splits; auto; [left; reflexivity|ring|discriminate].
    - msimp. simpl. splits; auto. }
  destruct K as (K1 & K2 & K3 & K4 & K5). clear H1. unfold arc_predict in H2.
  apply mbind_ok in H2. destruct H2 as (x1 & s & G & H2). apply gets_inv in G. destruct G as [-> ->].
  apply mbind_ok in H2. destruct H2 as (x1 & w & G & H2). apply getw_inv in G. destruct G as [-> ->].
  apply mbind_ok in H2. destruct H2 as (x1 & v & G & H2).
  assert (V : x1 = e1 /\ length v = length u /\ length u = length (w_u (e_w e1)) /\
     forall i, i < length u -> nth i v 0%R = (nth i u 0 + a_theta (e_s e1) * w_h (e_w e1) * nth i (w_duds (e_w e1)) 0)%R).
  { destruct (Rltb_spec 0 (a_theta (e_s e1))) as [L|L]; apply lift_inv in G; destruct G as [-> G].
    - apply vadd_ok in G. destruct G as (V1 & V2 & V3 & V4). splits; auto; try lia. intros i Hi. rewrite V4 by lia. ring.
    - apply vcopy_ok in G. destruct G as [-> V1]. splits; auto. intros i Hi. destruct K3 as [Z|Z]; rewrite Z in *; [ring|lra]. }
  destruct V as (-> & V1 & V2 & V3). clear G.
  apply mbind_ok in H2. destruct H2 as (x1 & [] & G & H2). apply modw_inv in G. subst x1.
  destruct (stop_u_comp st) as [[[i u1] b]|].
  - apply mbind_ok in H2. destruct H2 as (x1 & vi & G & H2). apply lift_inv in G. destruct G as [-> G].
    destruct (_ || _).
    + apply mbind_ok in H2. destruct H2 as (x1 & di & G2 & H2). apply lift_inv in G2. destruct G2 as [-> G2].
      destruct (Rltb_spec H_MIN (Rabs di)) as [Ld|Ld]; [|msimp].
      apply mbind_ok in H2. destruct H2 as (x1 & ui & G3 & H2). apply lift_inv in G3. destruct G3 as [-> G3].
      apply mbind_ok in H2. destruct H2 as (x1 & v2 & G4 & H2). apply lift_inv in G4. destruct G4 as [-> G4]. apply modw_inv in H2. subst e'.
      apply vadd_ok in G4. destruct G4 as (U1 & U2 & U3 & U4). simpl in *.
      assert (P : forall j, j < length u -> nth j v2 0%R = (nth j u 0 + a_theta (e_s e1) * ((u1 - ui) / di) * nth j (w_duds (e_w e)) 0)%R).
      { intros j Hj. rewrite U4 by lia. rewrite K1. ring. }
      rewrite K2. splits; auto; try lia; try congruence.
      intros Hs. destruct (K5 Hs) as [K6 K7]. split; [exact K6|]. split; [discriminate|].
      intros i' u1' b' Q Th. injection Q as -> -> ->. right.
      apply (vget_ok_inv _ _ _ 0%R) in G3. destruct G3 as [G3 G3']. apply (vget_ok_inv _ _ _ 0%R) in G2. destruct G2 as [G2 G2'].
      split; [exact G3|]. rewrite P by exact G3. rewrite Th, <- K1, G2', G3'.
      assert (di <> 0%R). { intros Z. rewrite Z, Rabs_R0 in Ld. rewrite H_MIN_val in Ld. lra. } field. exact H.
    + msimp. simpl. rewrite K1 in V3. splits; auto; try congruence.
      intros Hs. destruct (K5 Hs) as [K6 K7]. split; [exact K6|]. split; [discriminate|]. auto.
  - msimp. simpl. rewrite K1 in V3. splits; auto; try congruence.
    intros Hs. destruct (K5 Hs) as [K6 K7]. splits; auto.
Qed.

(** An iteration that does not converge moves (u, lambda) by the Newton correction of the augmented
    system, whose residuals G and N and derivatives are those of the state before. *)
Theorem C94_newton_arc u l (e e' : E) : exact_solver lin -> jac_contract sys -> arc_inv (e_s e) -> sized cfg sys e ->
  arc_iterate F A fin cfg sys lin u l e = (e', Ok Success) -> converged (w_err (e_w e')) = false ->
  let w := e_w e in let th := a_theta (e_s e) in
  exists m gl g x, residual_at sys (w_u w) (w_l w) g /\ jac_of sys (w_u w) (w_l w) m gl /\
    newton_augmented n (ent m) gl th (w_duds w) (w_dlds w) g
      (constraint n th (w_duds w) (w_dlds w) u l (w_h w) (w_u w) (w_l w)) x /\
    w_l (e_w e') = (w_l w + nth n x 0)%R /\ length (w_u (e_w e')) = length (w_u w) /\
    forall i, i < length (w_u w) -> nth i (w_u (e_w e')) 0%R = (nth i (w_u w) 0 + (if i <? n then nth i x 0 else 0))%R.
Proof.
  intros Ex Jc Inv Sz H Hn w th. unfold arc_iterate in H. apply mbind_ok in H. destruct H as (e1 & [] & H1 & H).
  apply call_gg_ok in H1. destruct H1 as (g & s1 & a1 & G1 & W1 & S1).
  apply mbind_ok in H. destruct H as (e2 & nn & H2 & H). apply arc_nn_ok in H2; [|rewrite S1; exact Inv].
  destruct H2 as [-> Hnn]. rewrite S1, W1 in Hnn. simpl in Hnn.
  apply mbind_ok in H. destruct H as (e2 & bad & H2 & H). unfold an_residual in H2.
  destruct (analyze_residual _ _ _ _ _ _) as [er b] eqn:Er. injection H2 as <- <-. destruct b; [discriminate H|].
  unfold is_conv in H at 1. apply mbind_ok in H. destruct H as (e3 & c & H3 & H).
  apply mbind_ok in H3. destruct H3 as (x3 & w3 & H3 & H3'). apply getw_inv in H3. destruct H3 as [-> ->].
  apply ret_inv in H3'. destruct H3' as [-> ->]. simpl in H.
  assert (RA : residual_at sys (w_u w) (w_l w) g) by (do 3 eexists; exact G1).
  destruct (converged er) eqn:Ec. { apply ret_inv in H. destruct H as [-> _]. simpl in Hn. congruence. }
  apply mbind_ok in H. destruct H as (e4 & xo & H4 & H).
  set (e3 := set_e_w (set_w_err er (e_w e1)) e1) in *.
  assert (Sz3 : sized cfg sys e3). { unfold sized, e3. simpl. rewrite S1, W1. exact Sz. }
  destruct xo as [x|]; [|apply ret_inv in H; destruct H as [_ H]; discriminate H].
  assert (Q : eqw (e_w e3) (e_w e4) /\ exists m gl, jac_of sys (w_u (e_w e3)) (w_l (e_w e3)) m gl /\
      newton_augmented n (ent m) gl (a_theta (e_s e3)) (w_duds (e_w e3)) (w_dlds (e_w e3)) (w_gg (e_w e3)) nn x).
  { destruct (c_bordering cfg) eqn:Hb.
    - split; [apply arc_bordering_ok in H4; [apply H4|exact Hb]|]. exact (C69_bordering cfg sys lin Ex Jc nn e3 e4 x Hb Sz3 H4).
    - split; [apply arc_augmented_ok in H4; [apply H4|exact Hb]|]. exact (C69_augmented cfg sys lin Ex Jc nn e3 e4 x Hb Sz3 H4). }
  destruct Q as ([s4 W4] & m & gl & J & N). unfold e3 in W4, J, N. simpl in W4, J, N. rewrite W1 in W4, J, N. rewrite S1 in N. simpl in W4, J, N.
  apply after_solve_ok in H. destruct H as (er' & D & H).
  destruct H as [(C1 & C2 & _) | (C1 & C2 & e8 & e9 & y & U1 & U1' & U2 & U3 & _)].
  { rewrite C2 in Hn. simpl in Hn. congruence. }
  apply mbind_ok in U2. destruct U2 as (x1 & w8 & Q & U2). apply getw_inv in Q. destruct Q as [-> ->].
  apply mbind_ok in U2. destruct U2 as (x1 & v & Q & U2). apply lift_inv in Q. destruct Q as [-> Q].
  apply mbind_ok in U2. destruct U2 as (x1 & xn & Q2 & U2). apply lift_inv in Q2. destruct Q2 as [-> Q2].
  apply modw_inv in U2. subst e9. simpl in U3. rewrite U1 in U3, Q. simpl in U3, Q. rewrite W4 in U3, Q. simpl in U3, Q. fold w in U3, Q.
  apply (vget_ok_inv _ _ _ 0%R) in Q2. destruct Q2 as [_ Q2].
  assert (B : n <= length (w_u w) /\ length v = length (w_u w) /\
     forall i, i < length (w_u w) -> nth i v 0%R = (nth i (w_u w) 0 + (if i <? n then nth i x 0 else 0))%R).
  { refine (for_range_partial (fun k v => k <= length (w_u w) /\ length v = length (w_u w) /\
       forall i, i < length (w_u w) -> nth i v 0%R = (nth i (w_u w) 0 + (if i <? k then nth i x 0 else 0))%R) _ 0 n _ _ _ Q _ _); [lia| |].
    - splits; auto; try lia. intros i Hi. simpl. ring.
    - intros i y1 y' Hi (B1 & B2 & B3) B.
      destruct (vget y1 i) as [ya|?|] eqn:E1; try discriminate B. apply (vget_ok_inv _ _ _ 0%R) in E1. destruct E1 as [E1 E1'].
      destruct (vget x i) as [yb|?|] eqn:E2; try discriminate B. apply (vget_ok_inv _ _ _ 0%R) in E2. destruct E2 as [E2 E2'].
      simpl in B. rewrite vset_ok in B by exact E1. injection B as <-. rewrite upd_length. splits; auto; try lia.
      intros j Hj. destruct (Nat.eq_dec j i) as [->|Nj].
      + rewrite nth_upd_eq by lia. rewrite <- E1', <- E2', B3 by lia. destruct (Nat.ltb_spec i i), (Nat.ltb_spec i (S i)); try lia. ring.
      + rewrite nth_upd_ne by lia. rewrite B3 by lia. destruct (Nat.ltb_spec j i), (Nat.ltb_spec j (S i)); try lia; reflexivity. }
  destruct B as (B1 & B2 & B3). rewrite U3. simpl.
  exists m, gl, g, x. split; [exact RA|]. split; [exact J|]. split; [rewrite Hnn in N; exact N|]. split; [unfold n; rewrite Q2; reflexivity|]. split; [exact B2|exact B3].
Qed.
End Arclength.

(* ------------------------------------------------------------------ *)
(** * The first predictor *)

(** G(u, lambda) = u - lambda^2, whose solutions are u(lambda) = lambda^2 *)
Definition px_sys : system nat :=
  mkSys 1 1 SymNo
    (fun _ l u a => (a, Ok [nth 0 u 0 - l * l]%R))
    (fun m g l _ a => match coo_put m 0 0 1%R, vset g 0 (-2 * l)%R with (m', Ok _), Ok g' => (a, Ok (m', g')) | _, _ => (a, Err "no") end)
    None None None None.
(** natural method, Euler predictor, residuals recorded *)
Definition px_cfg : config :=
  mkCfg Natural true false 0.5 1 1 10 None 0.001 0.001 0.001 1000 true 2 2 2
        true false false false false false 0 1 10 1 false 1 1 1 1 1 1.
Definition px_env : env (natst (option (coo R))) nat :=
  mkEnv (mkNat 0 false [0%R] (mkCoo SymNo 1 1 0 1 [0] [0] [0%R]) [0%R] None [0%R]) (work_new px_cfg 1) 0.

Lemma px_contract : jac_contract px_sys.
Proof.
  intros m0 g0 l u a a' m gl V T L H. simpl in H.
  destruct (coo_put_cases R m0 0 0 1%R V) as [[_ (c' & P & V' & Tr & R1 & R2 & R3 & R4)]|[_ (z & P)]]; rewrite P in H; [|discriminate H].
  simpl in L. destruct (vset g0 0 (-2 * l)%R) as [g'|z|] eqn:Ev; try discriminate H. injection H as <- <- <-.
  apply (conj V'). splits; auto.
  - unfold vset in Ev. destruct (0 <? length g0); [|discriminate]. injection Ev as <-. rewrite upd_length. exact L.
  - intros t Ht. rewrite Tr, T in Ht. destruct Ht as [<-|[]]. simpl. unfold row_of, col_of. simpl. lia.
Qed.
Example C94_px_sized : nsized px_sys px_env.
Proof. unfold nsized. repeat split; simpl; try lia; try congruence; match goal with H : In _ _ |- _ => destruct H end. Qed.

(** The predictor of the first step is not the point of the tangent at the start: the matrix and the
    vector Gl are computed after lambda has been moved, so the slope is that of a point (u0, lambda1) that
    is not on the curve.  For G = u - lambda^2, from (1, 1) with a step of 1, the predictor is u = 5 and
    not 1 + 1 * 2 = 3. *)
Theorem C94_first_predictor_refuted :
  exists e1 e2 e', nat_initialize _ _ 1 [1%R] 1 true px_env = (e1, Ok tt) /\
    nat_lambda _ _ 1 (Steps 10) e1 = (e2, Ok tt) /\ nat_predict _ _ px_cfg px_sys bx_lin [1%R] 1 e2 = (e', Ok tt) /\
    w_l (e_w e') = 2%R /\ w_u (e_w e') = [5%R] /\
    (forall d, derivable_pt_lim (fun l : R => l * l)%R 1%R d -> w_u (e_w e') <> [1 + (w_l (e_w e') - 1) * d]%R).
Proof.
  do 3 eexists. split; [reflexivity|]. split; [reflexivity|]. split.
  { unfold nat_predict. eapply mbind_eval; [reflexivity|]. cbv beta. eapply mbind_eval; [rev|]. rev. }
  cbn [e_w w_l w_u]. split; [simpl; ring|]. split; [f_equal; simpl; field|].
  intros d Hd. assert (d = 2%R).
  { apply (uniqueness_limite (fun l : R => l * l)%R 1%R); [exact Hd|]. replace 2%R with (1 * 1 + 1 * 1)%R by ring.
    apply (derivable_pt_lim_mult id id); apply derivable_pt_lim_id. }
  subst d. intros Q. injection Q. simpl. intros. lra.
Qed.

(** the hypotheses hold: the step from (1, 1) *)
Definition px_start : env (natst (option (coo R))) nat :=
  fst (nat_initialize (option (coo R)) nat 1 [1%R] 1 true px_env).
Example C94_run_step : holds px_sys bx_lin px_start /\ exists e',
  nat_step _ _ (fun _ => true) px_cfg px_sys bx_lin [1%R] 1 (Steps 10) px_start = (e', Ok Success).
Proof.
  split; [split; [exact C94_px_sized|discriminate]|]. eexists. unfold nat_step. rev.
Qed.
(** the step length is 1 and the state has not moved: N = -1 *)
Definition bx_env1 (b : bool) : env (arcst (option (coo R))) nat := set_e_w (set_w_h 1 (e_w (bx_env b))) (bx_env b).
Example C94_run_arc_bordering : arc_inv (e_s (bx_env1 true)) /\ sized (bx_cfg true) bx_sys (bx_env1 true) /\ exists e',
  arc_iterate _ _ (fun _ => true) (bx_cfg true) bx_sys bx_lin [0%R] 0 (bx_env1 true) = (e', Ok Success) /\ converged (w_err (e_w e')) = false.
Proof.
  split; [right; reflexivity|]. split; [exact (C69_sized true)|]. eexists. split; [unfold arc_iterate; rev|].
  reflexivity.
Qed.
Example C94_run_predictor : exists e1 e', arc_lambda _ _ 0 (Steps 10) (bx_env1 true) = (e1, Ok tt) /\ arc_predict _ _ [0%R] 0 (Steps 10) e1 = (e', Ok tt).
Proof. do 2 eexists. split; [reflexivity|]. unfold arc_predict. rev. Qed.

Print Assumptions C94_euler_predictor.
Print Assumptions C94_simple_predictor.
Print Assumptions C94_newton_natural.
Print Assumptions C94_holds_step.
Print Assumptions C94_holds_start.
Print Assumptions C94_arc_predictor.
Print Assumptions C94_newton_arc.
Print Assumptions C94_first_predictor_refuted.
