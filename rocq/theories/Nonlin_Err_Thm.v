(** C68: error control of the iterations of one continuation step. *)
From Verif Require Import RSum Sparse_Lib Nonlin_Drv_Thm.
Local Open Scope nat_scope.

(* ------------------------------------------------------------------ *)
(** * Specification *)

(** G(u, lambda) = g, as computed by the user's function *)
Definition residual_at {A} (sys : system A) (u : vec) (l : R) (g : vec) : Prop :=
  exists g0 a a', y_gg sys g0 l u a = (a', Ok g).
(** the matrix dG/du and the vector dG/dlambda at (u, lambda) *)
Definition jacobian_at {A} (sys : system A) (u : vec) (l : R) (m : coo R) (gl : vec) : Prop :=
  exists m0 g0 a a', y_jac sys m0 g0 l u a = (a', Ok (m, gl)).
(** x solves the system with matrix m and right-hand side b, according to the linear solver *)
Definition solved {F} (lin : linsolver F) (m : coo R) (b x : vec) : Prop :=
  exists f0 f, ls_factorize lin f0 m = (f, Ok tt) /\ ls_solve lin f b = Ok x.
(** root mean square of x, component i measured by tol_abs + tol_rel |v_i| *)
Definition scaled_rms (cfg : config) (v x : vec) : R :=
  sqrt (sumn (length x) (fun i => (nth i x 0 / (c_tol_abs_delta cfg + c_tol_rel_delta cfg * Rabs (nth i v 0)))^2) / INR (length x))%R.

Definition below (t : R) (g : vec) : Prop := forall x, In x g -> (Rabs x < t)%R.

(** natural method, step from (u, l) to (u', l'): the residual is below its tolerance, or the Newton
    correction at the new state is *)
Definition nat_conv {F A} cfg (sys : system A) (lin : linsolver F) (n : nat) (u : vec) (l : R) (u' : vec) (l' : R) : Prop :=
  exists g, residual_at sys u' l' g /\
    (below (c_tol_abs_residual cfg) g \/
     (c_disable_rel_delta cfg = false /\
      exists m gl x, jacobian_at sys u' l' m gl /\ solved lin m g x /\ (scaled_rms cfg (firstn n u ++ [l]) x <= 1)%R)).

(** the arc-length constraint N(u', l') for a step from (u, l) along the tangent (t, tl) *)
Definition constraint (n : nat) (theta : R) (t : vec) (tl : R) (u : vec) (l : R) (h : R) (u' : vec) (l' : R) : R :=
  (theta * sumn n (fun i => (nth i u' 0 - nth i u 0) * nth i t 0) + (2 - theta) * (l' - l) * tl - h)%R.

(** the correction (du, dlambda) of the arc-length method at (u', l'), where G = g and N = nn: by
    bordering, or with the augmented matrix *)
Definition arc_correction {F A} cfg (sys : system A) (lin : linsolver F) (theta : R) (t : vec) (tl nn : R)
    (u' : vec) (l' : R) (g x : vec) : Prop :=
  let n := y_ndim sys in
  exists m gl f0 f, jacobian_at sys u' l' m gl /\
  if c_bordering cfg then
    ls_factorize lin f0 m = (f, Ok tt) /\
    exists a b, ls_solve lin f gl = Ok a /\ ls_solve lin f g = Ok b /\ n <= length a /\ n <= length b /\ n < length x /\
      let den := (theta * inner t a - (2 - theta) * tl)%R in
      (H_MIN <= Rabs den)%R /\ nth n x 0%R = ((nn - theta * inner t b) / den)%R /\
      forall i, i < n -> nth i x 0%R = (- nth n x 0 * nth i a 0 - nth i b 0)%R
  else
    exists aa b, border A sys false gl t theta tl m = Ok aa /\ ls_factorize lin f0 aa = (f, Ok tt) /\ ls_solve lin f b = Ok x /\
      n < length b /\ nth n b 0%R = (- nn)%R /\ forall i, i < n -> i < length g /\ nth i b 0%R = (- nth i g 0)%R.

(** arc-length method, step from (u, l) to (u', l') along the tangent (t, tl) *)
Definition arc_conv {F A} cfg (sys : system A) (lin : linsolver F) (k : nat) (theta : R) (t : vec) (tl : R) (u : vec) (l h : R)
    (u' : vec) (l' : R) : Prop :=
  let nn := constraint (y_ndim sys) theta t tl u l h u' l' in
  exists g, residual_at sys u' l' g /\
    ((below (c_tol_abs_residual cfg) g /\ (Rabs nn < c_tol_abs_residual cfg)%R) \/
     (c_disable_rel_delta cfg = false /\
      exists x, arc_correction cfg sys lin theta t tl nn u' l' g x /\ (scaled_rms cfg (firstn k u ++ [l]) x <= 1)%R)).

(* ------------------------------------------------------------------ *)
(** * Proofs *)

Lemma vmax_below g t : (vmax g < t)%R -> below t g.
Proof.
  induction g as [|y g IH]; intros H x [].
  - subst y. simpl in H. pose proof (Rmax_l (Rabs x) (vmax g)). unfold vmax in *. simpl in H. lra.
  - apply IH; auto. simpl in H. pose proof (Rmax_r (Rabs y) (vmax g)). unfold vmax in *. simpl in *. lra.
Qed.

Lemma rms_scaled_spec x sc r : rms_scaled x sc = Ok r ->
  length x <= length sc /\ r = sqrt (sumn (length x) (fun i => (nth i x 0 / nth i sc 0)^2) / INR (length x))%R.
Proof.
  unfold rms_scaled. intros H. unfold bind in H at 1.
  destruct (for_range _ _ _ _) as [s|m|] eqn:E; try discriminate. injection H as <-.
  assert (Q : length x <= length sc /\ s = sumn (length x) (fun i => (nth i x 0 / nth i sc 0)^2)%R).
  { refine (for_range_partial (fun k s => k <= length sc /\ s = sumn k (fun i => (nth i x 0 / nth i sc 0)^2)%R) _ 0 (length x) _ _ _ E _ _).
    - lia.
    - split; [lia | reflexivity].
    - intros i s1 s2 Hi [L ->] B. rewrite (vget_ok x i 0%R) in B by lia. simpl in B.
      destruct (vget sc i) as [si|m|] eqn:Es; try discriminate B. apply (vget_ok_inv _ _ _ 0%R) in Es as [Li Es].
      injection B as <-. split; [lia|]. simpl. rewrite Es. ring. }
  destruct Q as [Q ->]. auto.
Qed.

Lemma err_reset_spec cfg u l e e' : err_reset cfg u l e = Ok e' ->
  let n := length (er_scaling e) - 1 in
  n <= length u /\ er_dconv e' = false /\
  er_scaling e' = map (fun v => c_tol_abs_delta cfg + c_tol_rel_delta cfg * Rabs v)%R (firstn n u ++ [l]).
Proof.
  intros H n. unfold err_reset in H. unfold bind in H at 1. unfold usub in H. destruct (Nat.leb_spec 1 (length (er_scaling e))) as [L|L]; [|discriminate].
  fold n in H. unfold bind in H at 1. destruct (for_range 0 n _ _) as [sc|m|] eqn:E; try discriminate.
  assert (Q : n <= length u /\ length sc = length (er_scaling e) /\
              forall i, i < n -> nth i sc 0%R = (c_tol_abs_delta cfg + c_tol_rel_delta cfg * Rabs (nth i u 0))%R).
  { refine (for_range_partial (fun k sc => k <= length u /\ length sc = length (er_scaling e) /\
              forall i, i < k -> nth i sc 0%R = (c_tol_abs_delta cfg + c_tol_rel_delta cfg * Rabs (nth i u 0))%R) _ 0 n _ _ _ E _ _).
    - lia.
    - repeat split; lia.
    - intros i t t' Hi (Q1 & Q2 & Q3) B. destruct (vget u i) as [ui|m|] eqn:Es; try discriminate B.
      apply (vget_ok_inv _ _ _ 0%R) in Es as [Li Es]. simpl in B. rewrite (vset_ok t) in B by lia. injection B as <-.
      split; [lia|]. split; [rewrite upd_length; exact Q2|]. intros j Hj.
      destruct (Nat.eq_dec j i) as [->|N]; [rewrite nth_upd_eq by lia; rewrite Es; reflexivity|].
      rewrite nth_upd_ne by lia. apply Q3. lia. }
  destruct Q as (Q1 & Q2 & Q3). rewrite vset_ok in H by lia. simpl in H. injection H as <-. simpl.
  split; [exact Q1|]. split; [reflexivity|].
  apply (nth_ext _ _ 0%R 0%R).
  - rewrite upd_length, map_length, app_length, firstn_length. simpl. lia.
  - intros i Hi. rewrite upd_length in Hi.
    set (f := fun v => (c_tol_abs_delta cfg + c_tol_rel_delta cfg * Rabs v)%R).
    rewrite (nth_indep (map f _) 0%R (f 0%R)) by (rewrite map_length, app_length, firstn_length; simpl; lia).
    rewrite map_nth. destruct (Nat.eq_dec i n) as [->|N].
    + rewrite nth_upd_eq by lia. rewrite app_nth2 by (rewrite firstn_length; lia). rewrite firstn_length, Nat.min_l, Nat.sub_diag by lia. reflexivity.
    + rewrite nth_upd_ne by lia. rewrite app_nth1 by (rewrite firstn_length; lia).
      rewrite nth_firstn_lt by lia. apply Q3. lia.
Qed.

(** the primitive calls *)
Section Calls.
Context {S A : Type}.
Lemma call_gg_ok (sys : system A) (e e' : env S A) x : call_gg sys e = (e', Ok x) ->
  exists g s a, y_gg sys (w_gg (e_w e)) (w_l (e_w e)) (w_u (e_w e)) (e_a e) = (a, Ok g) /\
    e_w e' = set_w_gg g (set_w_stats s (e_w e)) /\ e_s e' = e_s e.
Proof.
  unfold call_gg. intros H. apply mbind_ok in H. destruct H as (e1 & [] & H1 & H). apply modst_inv in H1. subst e1. simpl in H.
  destruct (y_gg sys _ _ _ _) as [a [g|m|]]; try discriminate H. injection H as <- _.
  exists g. do 2 eexists. split; [reflexivity|]. split; reflexivity.
Qed.
Lemma call_update_w (sys : system A) b u l (e e' : env S A) x : call_update sys b u l e = (e', Ok x) -> e_w e' = e_w e /\ e_s e' = e_s e.
Proof.
  unfold call_update. destruct (y_update sys) as [f|]; [|intros H; msimp; auto].
  destruct (f _ _ _ _ _ _) as [a r]. intros H. injection H as <- _. auto.
Qed.
End Calls.

(** what `iterate` does to the error record *)
Lemma residual_conv fin cfg it gg nn e e' : analyze_residual fin cfg it gg nn e = (e', false) ->
  er_dconv e' = er_dconv e /\ er_scaling e' = er_scaling e /\
  (er_rconv e' = true -> below (c_tol_abs_residual cfg) gg /\ (Rabs nn < c_tol_abs_residual cfg)%R).
Proof.
  unfold analyze_residual. destruct (negb _); [discriminate|]. intros H. injection H as <-.
  assert (Q : er_rconv (set_er_rconv (Rltb (Rmax (vmax gg) (Rabs nn)) (c_tol_abs_residual cfg)) e) = true ->
              below (c_tol_abs_residual cfg) gg /\ (Rabs nn < c_tol_abs_residual cfg)%R).
  { simpl. intros H. apply Rltb_true in H. pose proof (Rmax_l (vmax gg) (Rabs nn)). pose proof (Rmax_r (vmax gg) (Rabs nn)).
    split; [apply vmax_below|]; lra. }
  destruct (_ && _); simpl in *; auto.
Qed.
Lemma delta_conv fin cfg it x e e' : analyze_delta fin cfg it x e = Ok (e', false) ->
  er_rconv e' = er_rconv e /\ er_scaling e' = er_scaling e /\
  (er_dconv e' = true -> er_dconv e = true \/
     (c_disable_rel_delta cfg = false /\ exists r, rms_scaled x (er_scaling e) = Ok r /\ (r <= 1)%R)).
Proof.
  unfold analyze_delta. destruct (c_disable_rel_delta cfg); [intros H; injection H as <-; auto|].
  destruct (negb _); [discriminate|]. simpl. destruct (rms_scaled x (er_scaling e)) as [r|m|] eqn:E; try discriminate.
  simpl. intros H. injection H as <-.
  destruct (_ && _); simpl; repeat split; auto; intros H; right; split; auto; exists r; split; auto; apply Rleb_true, H.
Qed.
Lemma failures_ok cfg it e e' : capture_failures cfg it e = Ok (e', Success) -> e' = e /\ it <> c_n_iteration_max cfg - 1.
Proof.
  unfold capture_failures. destruct (Rltb _ _); [discriminate|]. destruct (_ <=? _); [discriminate|]. destruct (_ <=? _); [discriminate|].
  unfold usub. destruct (1 <=? _); [|discriminate]. simpl. destruct (Nat.eqb_spec it (c_n_iteration_max cfg - 1)); [discriminate|].
  intros H. injection H as <-. auto.
Qed.

Lemma success_inv s : failure s = false -> s = Success.
Proof. destruct s; auto; discriminate. Qed.

Section AfterSolve.
Context {S A : Type}.
Lemma after_solve_ok fin cfg (sys : system A) x upd u l (e e' : env S A) :
  after_solve fin cfg sys x upd u l e = (e', Ok Success) ->
  exists er, analyze_delta fin cfg (w_n_iteration (e_w e)) x (w_err (e_w e)) = Ok (er, false) /\
    ((converged er = true /\ e_w e' = set_w_err er (e_w e) /\ e_s e' = e_s e) \/
     (converged er = false /\ w_n_iteration (e_w e) <> c_n_iteration_max cfg - 1 /\
      exists e1 e2 y, e_w e1 = set_w_err er (e_w e) /\ e_s e1 = e_s e /\ upd e1 = (e2, Ok y) /\ e_w e' = e_w e2 /\ e_s e' = e_s e2)).
Proof.
  unfold after_solve. intros H. apply mbind_ok in H. destruct H as (e1 & bad & H1 & H).
  unfold an_delta in H1. destruct (analyze_delta _ _ _ _ _) as [[er b]|m|] eqn:Ed; try discriminate H1.
  injection H1 as <- <-. destruct b; [discriminate H|]. exists er. split; [reflexivity|].
  unfold is_conv in H. apply mbind_ok in H. destruct H as (e2 & c & H2 & H). msimp. simpl in H.
  destruct (converged er) eqn:Ec; [left; msimp; auto|]. right. split; [reflexivity|].
  apply mbind_ok in H. destruct H as (e3 & st & H3 & H). unfold an_failures in H3. simpl in H3.
  destruct (capture_failures _ _ _) as [[er2 st2]|m|] eqn:Ef; try discriminate H3. injection H3 as <- <-.
  destruct (failure st2) eqn:F; [msimp; discriminate F|]. apply success_inv in F. subst st2. apply failures_ok in Ef as [-> Hit].
  split; [exact Hit|].
  apply mbind_ok in H. destruct H as (e4 & y & H4 & H). apply mbind_ok in H. destruct H as (e5 & st & H5 & H).
  apply call_update_w in H5 as [W1 W2]. do 3 eexists. split; [|split; [|split; [exact H4|]]]; [reflexivity | reflexivity|].
  destruct (failure st); msimp; rewrite W1, W2; auto.
Qed.

Lemma step_begin_ok cfg (sys : system A) u l (e e' : env S A) x : step_begin cfg sys u l e = (e', Ok x) ->
  exists er s, err_reset cfg u l (w_err (e_w e)) = Ok er /\ e_w e' = set_w_stats s (set_w_err er (e_w e)) /\ e_s e' = e_s e.
Proof.
  intros H1. unfold step_begin in H1. apply mbind_ok in H1. destruct H1 as (x1 & w1 & G1 & H1). apply getw_inv in G1. destruct G1 as [-> ->].
  assert (K : forall f, keeps (fun x : env S A => e_w x = e_w e /\ e_s x = e_s e) (call_args f)).
  { intros f. kp ltac:(intros; match goal with Q : e_w _ = _ /\ _ |- _ => exact Q end). }
  apply mbind_ok in H1. destruct H1 as (x2 & [] & G2 & H1).
  assert (K2 : e_w x2 = e_w e /\ e_s x2 = e_s e).
  { destruct (w_auto (e_w e)); [|msimp; auto]. specialize (K (y_backup sys) e (conj eq_refl eq_refl)). rewrite G2 in K. exact K. }
  apply mbind_ok in H1. destruct H1 as (x3 & [] & G3 & H1).
  assert (K3 : e_w x3 = e_w e /\ e_s x3 = e_s e).
  { specialize (K (y_prepare sys) x2 K2). rewrite G3 in K. exact K. }
  destruct K3 as [K3 K4]. msimp. rewrite K3 in H0. do 2 eexists. split; [exact H0|]. simpl. rewrite K3, K4. split; reflexivity.
Qed.

(** the loop, for either `iterate` *)
Lemma iterations_ok cfg (iterate : M (env S A) status) (B C : env S A -> Prop) :
  (forall e s, B e -> B (set_e_w (set_w_stats s (e_w e)) e)) ->
  (forall e s, C e -> C (set_e_w (set_w_stats s (e_w e)) e)) ->
  (forall e k, B e -> B (set_e_w (set_w_n_iteration k (e_w e)) e)) ->
  (forall e e', B e -> iterate e = (e', Ok Success) ->
     w_n_iteration (e_w e') = w_n_iteration (e_w e) /\
     (converged (w_err (e_w e')) = true -> C e') /\
     (converged (w_err (e_w e')) = false -> B e' /\ w_n_iteration (e_w e) <> c_n_iteration_max cfg - 1)) ->
  forall e e', 1 <= c_n_iteration_max cfg -> B e -> iterations cfg iterate e = (e', Ok Success) -> C e'.
Proof.
  intros Bs Cs Bn It e e' Hm He H. unfold iterations in H.
  apply mbind_ok in H. destruct H as (e1 & [] & H1 & H). apply modw_inv in H1.
  apply mbind_ok in H. destruct H as (e2 & st & H2 & H). msimp. apply Cs.
  set (I := fun (i : nat) (y : status) (e : env S A) => B e /\ w_n_iteration (e_w e) = i /\ (i <> 0 -> i <> c_n_iteration_max cfg)).
  set (Q := fun (y : status) (e : env S A) => y = Success -> C e).
  match type of H2 with mloop ?n 0 ?body _ ?x = _ =>
    assert (T : triple (I 0 Success) (mloop n 0 body Success) Q (fun _ => True)) end.
  { apply t_loop.
    - intros j y Hj x (X1 & X2 & X3).
      destruct ((_ : M (env S A) (bool * status)) x) as [x' [[b z]|m|]] eqn:E; try exact I0; auto.
      simpl. unfold mbind at 1 in E. unfold modst, modw, modify in E. simpl in E.
      match type of E with mbind iterate _ ?y = _ => set (x1 := y) in E end.
      assert (B1 : B x1) by (apply Bs, X1).
      apply mbind_ok in E. destruct E as (x2 & st2 & E2 & E).
      destruct (failure st2) eqn:F; [msimp; simpl; intros ->; discriminate F|]. apply success_inv in F. subst st2.
      destruct (It _ _ B1 E2) as (K1 & K2 & K3).
      apply mbind_ok in E. destruct E as (x3 & w & E3 & E). apply getw_inv in E3. destruct E3 as [-> ->].
      apply mbind_ok in E. destruct E as (x4 & [] & E4 & E). injection E4 as <-.
      destruct (converged (w_err (e_w x2))) eqn:Ec.
      + apply ret_inv in E. destruct E as [-> E]. injection E as -> ->. simpl. intros _. apply Cs, K2. reflexivity.
      + apply mbind_ok in E. destruct E as (x5 & [] & E5 & E). injection E5 as <-.
        apply ret_inv in E. destruct E as [-> E]. injection E as -> ->. simpl.
        destruct (K3 eq_refl) as [K4 K5]. change (w_n_iteration (e_w x1)) with (w_n_iteration (e_w x)) in K1, K5.
        split; [|split; [simpl; lia | lia]].
        apply (Bn (set_e_w (set_w_stats _ (e_w x2)) x2)). apply Bs, K4.
    - intros y x (_ & _ & X3). exfalso. lia. }
  specialize (T (set_e_w (set_w_n_iteration 0 (e_w e)) e)).
  match type of T with I 0 Success ?x -> _ => assert (I0 : I 0 Success x) by (split; [apply Bn, He | split; [reflexivity | lia]]) end.
  specialize (T I0). rewrite H2 in T. apply T. reflexivity.
Qed.
End AfterSolve.

(* ------------------------------------------------------------------ *)
(** ** Natural method *)

Section Natural.
Context {F A : Type} (fin : R -> bool) (cfg : config) (sys : system A) (lin : linsolver F).

Lemma write_matrix_same m (e e' : env (natst F) A) x : write_matrix F A cfg m e = (e', Ok x) -> e' = e.
Proof.
  unfold write_matrix. intros H. apply mbind_ok in H. destruct H as (e1 & w & H1 & H). apply getw_inv in H1. destruct H1 as [-> ->].
  destruct (c_write_matrix cfg); [|msimp; reflexivity]. destruct (_ <? _); [|msimp; reflexivity].
  destruct (csc_from_coo _ _ _ _); msimp.
Qed.
Lemma nat_jac_ok (e e' : env (natst F) A) x : nat_jac F A cfg sys lin e = (e', Ok x) ->
  exists s m gl f0, e_w e' = set_w_stats s (e_w e) /\ jacobian_at sys (w_u (e_w e)) (w_l (e_w e)) m gl /\
    ls_factorize lin f0 m = (n_ls (e_s e'), Ok tt).
Proof.
  unfold nat_jac. intros H. apply mbind_ok in H. destruct H as (e1 & [] & H1 & H). injection H1 as <-. simpl in H.
  apply mbind_ok in H. destruct H as (e2 & [] & H2 & H). simpl in H2.
  destruct (y_jac sys _ _ _ _ _) as [a [[m gl]|z|]] eqn:Ej; try discriminate H2. injection H2 as <-.
  apply mbind_ok in H. destruct H as (e3 & s & H3 & H). apply gets_inv in H3. destruct H3 as [-> ->].
  apply mbind_ok in H. destruct H as (e4 & [] & H4 & H). apply write_matrix_same in H4. subst e4.
  apply mbind_ok in H. destruct H as (e5 & [] & H5 & H). injection H5 as <-. simpl in H.
  destruct (ls_factorize lin _ _) as [f r] eqn:Ef. injection H as <- ->. destruct x.
  do 4 eexists. split; [reflexivity|]. split; [do 4 eexists; exact Ej|]. exact Ef.
Qed.

Lemma nat_solve_ok rhs (e e' : env (natst F) A) x : nat_solve F A lin rhs e = (e', Ok x) ->
  ls_solve lin (n_ls (e_s e)) rhs = Ok x /\ e_w e' = e_w e.
Proof. unfold nat_solve. intros H. msimp. auto. Qed.

(** converged with respect to the weights sc *)
Definition nat_done (sc : vec) (u' : vec) (l' : R) : Prop :=
  exists g, residual_at sys u' l' g /\
    (below (c_tol_abs_residual cfg) g \/
     (c_disable_rel_delta cfg = false /\
      exists m gl x r, jacobian_at sys u' l' m gl /\ solved lin m g x /\ rms_scaled x sc = Ok r /\ (r <= 1)%R)).

Lemma nat_iterate_ok u l sc (e e' : env (natst F) A) :
  nat_iterate F A fin cfg sys lin u l e = (e', Ok Success) ->
  er_dconv (w_err (e_w e)) = false -> er_scaling (w_err (e_w e)) = sc ->
  w_n_iteration (e_w e') = w_n_iteration (e_w e) /\
  (converged (w_err (e_w e')) = true -> nat_done sc (w_u (e_w e')) (w_l (e_w e'))) /\
  (converged (w_err (e_w e')) = false ->
     er_dconv (w_err (e_w e')) = false /\ er_scaling (w_err (e_w e')) = sc /\ w_n_iteration (e_w e) <> c_n_iteration_max cfg - 1).
Proof.
  intros H Hd <-. unfold nat_iterate in H. apply mbind_ok in H. destruct H as (e1 & [] & H1 & H).
  apply call_gg_ok in H1. destruct H1 as (g & s1 & a1 & G1 & W1 & S1).
  apply mbind_ok in H. destruct H as (e2 & bad & H2 & H). unfold an_residual in H2.
  destruct (analyze_residual _ _ _ _ _ _) as [er b] eqn:Er. injection H2 as <- <-. destruct b; [discriminate H|].
  rewrite W1 in Er. simpl in Er. apply residual_conv in Er. destruct Er as (R1 & R2 & R3).
  unfold is_conv in H at 1. apply mbind_ok in H. destruct H as (e3 & c & H3 & H). msimp. simpl in H.
  assert (RA : residual_at sys (w_u (e_w e)) (w_l (e_w e)) g) by (do 3 eexists; exact G1).
  destruct (converged er) eqn:Ec.
  - msimp. simpl. rewrite W1. simpl. split; [reflexivity|]. split; [intros _ | rewrite Ec; discriminate].
    exists g. split; [exact RA|]. left. unfold converged in Ec. rewrite R1, Hd, orb_false_r in Ec. apply R3, Ec.
  - apply mbind_ok in H. destruct H as (e4 & [] & H4 & H). apply nat_jac_ok in H4. destruct H4 as (s4 & m & gl & f0 & W4 & J4 & F4).
    simpl in W4, J4. rewrite W1 in W4, J4. simpl in W4, J4.
    apply mbind_ok in H. destruct H as (e5 & [] & H5 & H). injection H5 as <-.
    apply mbind_ok in H. destruct H as (e6 & w & H6 & H). apply getw_inv in H6. destruct H6 as [-> ->].
    apply mbind_ok in H. destruct H as (e7 & x & H7 & H). apply nat_solve_ok in H7. destruct H7 as [L7 W7]. simpl in L7, W7.
    rewrite W4 in L7, W7. simpl in L7, W7.
    apply after_solve_ok in H. destruct H as (er' & D & H). rewrite W7 in D. simpl in D.
    apply delta_conv in D. destruct D as (D1 & D2 & D3).
    assert (X : er_dconv er' = true -> c_disable_rel_delta cfg = false /\ exists r, rms_scaled x (er_scaling (w_err (e_w e))) = Ok r /\ (r <= 1)%R).
    { intros Q. destruct (D3 Q) as [Z|Z]; [congruence|]. rewrite R2 in Z. exact Z. }
    unfold converged in Ec. apply orb_false_elim in Ec. destruct Ec as [Ec1 Ec2].
    destruct H as [(C1 & C2 & _) | (C1 & C2 & e8 & e9 & y & U1 & _ & U2 & U3 & _)].
    + rewrite C2. simpl. rewrite W7. simpl. split; [reflexivity|]. split; [intros _ | congruence].
      exists g. split; [exact RA|]. right. unfold converged in C1. rewrite D1, Ec1 in C1. simpl in C1.
      destruct (X C1) as (X1 & r & X2 & X3). split; [exact X1|]. exists m, gl, x, r. repeat split; auto.
      exists f0, (n_ls (e_s e4)). auto.
    + rewrite W7 in C2. simpl in C2. apply mbind_ok in U2. destruct U2 as (x1 & w & Q & U2). apply getw_inv in Q. destruct Q as [-> ->].
      msimp. simpl in U3. rewrite U3. simpl. rewrite U1. simpl. rewrite W7. simpl.
      split; [reflexivity|]. split; [congruence|]. intros _. unfold converged in C1. apply orb_false_elim in C1. destruct C1 as [_ C1].
      rewrite D2, R2. auto.
Qed.

Lemma nat_done_conv n u l u' l' :
  n <= length u ->
  nat_done (map (fun v => c_tol_abs_delta cfg + c_tol_rel_delta cfg * Rabs v)%R (firstn n u ++ [l])) u' l' ->
  nat_conv cfg sys lin n u l u' l'.
Proof.
  intros Hn (g & RA & H). exists g. split; [exact RA|]. destruct H as [H | (H1 & m & gl & x & r & J & So & Rm & Rl)]; [left; exact H|].
  right. split; [exact H1|]. exists m, gl, x. split; [exact J|]. split; [exact So|].
  apply rms_scaled_spec in Rm. destruct Rm as [L ->]. unfold scaled_rms.
  replace (sumn (length x) _) with (sumn (length x) (fun i => (nth i x 0 / nth i (map (fun v => c_tol_abs_delta cfg + c_tol_rel_delta cfg * Rabs v) (firstn n u ++ [l])) 0) ^ 2))%R; [exact Rl|].
  apply sumn_ext. intros i Hi. set (f := fun v => (c_tol_abs_delta cfg + c_tol_rel_delta cfg * Rabs v)%R).
  rewrite map_length in L. rewrite (nth_indep (map f _) 0%R (f 0%R)) by (rewrite map_length; lia). rewrite map_nth. reflexivity.
Qed.

(** A successful step of the natural method ends at a state where the residual is below its
    tolerance, or where the Newton correction is (it is then not applied). *)
Theorem C68_natural u l st (e e' : env (natst F) A) :
  1 <= c_n_iteration_max cfg ->
  nat_step F A fin cfg sys lin u l st e = (e', Ok Success) ->
  nat_conv cfg sys lin (length (er_scaling (w_err (e_w e))) - 1) u l (w_u (e_w e')) (w_l (e_w e')).
Proof.
  intros Hm H. unfold nat_step in H. apply mbind_ok in H. destruct H as (e1 & [] & H1 & H).
  set (n := length (er_scaling (w_err (e_w e))) - 1).
  set (sc := map (fun v => c_tol_abs_delta cfg + c_tol_rel_delta cfg * Rabs v)%R (firstn n u ++ [l])).
  set (B := fun e : env (natst F) A => er_dconv (w_err (e_w e)) = false /\ er_scaling (w_err (e_w e)) = sc).
  assert (I1 : n <= length u /\ B e1).
  { apply step_begin_ok in H1. destruct H1 as (er & s1 & R1 & W1 & _). apply err_reset_spec in R1.
    unfold B. rewrite W1. exact R1. }
  destruct I1 as [Ln I1].
  apply nat_done_conv; [exact Ln|]. fold sc.
  apply mbind_ok in H. destruct H as (e2 & [] & H2 & H).
  assert (I2 : B e2).
  { assert (K : keeps B (nat_lambda F A l st)).
    { unfold nat_lambda. kp ltac:(intros; match goal with Q : B _ |- _ => exact Q end). }
    specialize (K e1 I1). rewrite H2 in K. exact K. }
  apply mbind_ok in H. destruct H as (e3 & [] & H3 & H).
  assert (I3 : B e3).
  { assert (K : keeps B (nat_predict F A cfg sys lin u l)).
    { unfold nat_predict, nat_jac, nat_solve, write_matrix. kp ltac:(intros; match goal with Q : B _ |- _ => exact Q end);
      intros z Hz; [destruct (y_jac sys _ _ _ _ _) as [a [[m g]|m|]]; exact Hz | destruct (ls_factorize lin _ _) as [f r]; exact Hz]. }
    specialize (K e2 I2). rewrite H3 in K. exact K. }
  apply mbind_ok in H. destruct H as (e4 & s4 & H4 & H). apply call_update_w in H4. destruct H4 as [W4 S4].
  assert (I4 : B e4) by (unfold B; rewrite W4; exact I3).
  destruct (failure s4) eqn:Fs; [msimp; discriminate Fs|].
  apply mbind_ok in H. destruct H as (e5 & [] & H5 & H).
  assert (I5 : B e5).
  { assert (K : keeps B (push_debug cfg)).
    { unfold push_debug. kp ltac:(intros; match goal with Q : B _ |- _ => exact Q end). }
    specialize (K e4 I4). rewrite H5 in K. exact K. }
  refine (iterations_ok cfg _ B (fun e => nat_done sc (w_u (e_w e)) (w_l (e_w e))) _ _ _ _ e5 e' Hm I5 H); auto.
  intros x x' [Bx1 Bx2] Hx. destruct (nat_iterate_ok _ _ sc _ _ Hx Bx1 Bx2) as (N1 & N2 & N3).
  split; [exact N1|]. split; [exact N2|]. intros C. destruct (N3 C) as (N4 & N5 & N6). repeat split; auto.
Qed.
End Natural.

(* ------------------------------------------------------------------ *)
(** ** Arc-length method *)

Section Arclength.
Context {F A : Type} (fin : R -> bool) (cfg : config) (sys : system A) (lin : linsolver F).
Let E := env (arcst F) A.

Lemma arc_write_same (e e' : E) x : arc_write_matrix F A cfg e = (e', Ok x) -> e' = e.
Proof.
  unfold arc_write_matrix. intros H. apply mbind_ok in H. destruct H as (e1 & w & H1 & H). apply getw_inv in H1. destruct H1 as [-> ->].
  apply mbind_ok in H. destruct H as (e1 & w & H1 & H). apply gets_inv in H1. destruct H1 as [-> ->].
  destruct (c_write_matrix cfg); [|msimp; reflexivity]. destruct (_ <? _); [|msimp; reflexivity].
  destruct (csc_from_coo _ _ _ _); msimp.
Qed.

(** the fields of the method's state that the iterations read *)
Lemma arc_jac_ok (e e' : E) x : arc_jac F A cfg sys lin e = (e', Ok x) ->
  exists s m f0, e_w e' = set_w_stats s (e_w e) /\ jacobian_at sys (w_u (e_w e)) (w_l (e_w e)) m (a_ggl (e_s e')) /\
    ls_factorize lin f0 m = (a_ls (e_s e'), Ok tt) /\ a_theta (e_s e') = a_theta (e_s e) /\ a_x (e_s e') = a_x (e_s e).
Proof.
  unfold arc_jac. intros H. apply mbind_ok in H. destruct H as (e0 & [] & H0 & H). apply lift_inv in H0. destruct H0 as [-> _].
  apply mbind_ok in H. destruct H as (e1 & [] & H1 & H). injection H1 as <-. simpl in H.
  apply mbind_ok in H. destruct H as (e2 & [] & H2 & H). simpl in H2.
  destruct (y_jac sys _ _ _ _ _) as [a [[m gl]|z|]] eqn:Ej; try discriminate H2. injection H2 as <-.
  apply mbind_ok in H. destruct H as (e4 & [] & H4 & H). apply arc_write_same in H4. subst e4.
  apply mbind_ok in H. destruct H as (e5 & [] & H5 & H). injection H5 as <-. simpl in H.
  destruct (ls_factorize lin _ _) as [f r] eqn:Ef. injection H as <- ->. destruct x.
  do 3 eexists. split; [reflexivity|]. split; [do 4 eexists; exact Ej|]. split; [exact Ef|]. split; reflexivity.
Qed.
Lemma arc_aa_ok b (e e' : E) x : arc_aa F A cfg sys lin b e = (e', Ok x) ->
  exists s m aa f0, e_w e' = set_w_stats s (e_w e) /\ jacobian_at sys (w_u (e_w e)) (w_l (e_w e)) m (a_ggl (e_s e')) /\
    border A sys b (a_ggl (e_s e')) (w_duds (e_w e)) (a_theta (e_s e)) (w_dlds (e_w e)) m = Ok aa /\
    ls_factorize lin f0 aa = (a_ls (e_s e'), Ok tt) /\ a_theta (e_s e') = a_theta (e_s e) /\ a_b (e_s e') = a_b (e_s e).
Proof.
  unfold arc_aa. intros H. apply mbind_ok in H. destruct H as (e0 & [] & H0 & H). apply lift_inv in H0. destruct H0 as [-> _].
  apply mbind_ok in H. destruct H as (e1 & [] & H1 & H). injection H1 as <-. simpl in H.
  apply mbind_ok in H. destruct H as (e2 & [] & H2 & H). simpl in H2.
  destruct (y_jac sys _ _ _ _ _) as [a [[m gl]|z|]] eqn:Ej; try discriminate H2. injection H2 as <-.
  apply mbind_ok in H. destruct H as (x1 & s1 & G1 & H). apply gets_inv in G1. destruct G1 as [-> ->].
  apply mbind_ok in H. destruct H as (x1 & s1 & G1 & H). apply getw_inv in G1. destruct G1 as [-> ->].
  apply mbind_ok in H. destruct H as (x1 & aa & G1 & H). apply lift_inv in G1. destruct G1 as [-> G1].
  apply mbind_ok in H. destruct H as (x1 & [] & G2 & H). injection G2 as <-.
  apply mbind_ok in H. destruct H as (e4 & [] & H4 & H). apply arc_write_same in H4. subst e4.
  apply mbind_ok in H. destruct H as (e5 & [] & H5 & H). injection H5 as <-. simpl in H.
  destruct (ls_factorize lin _ _) as [f r] eqn:Ef. injection H as <- ->. destruct x.
  do 4 eexists. split; [reflexivity|]. split; [do 4 eexists; exact Ej|]. split; [exact G1|]. split; [exact Ef|]. split; reflexivity.
Qed.
Lemma arc_solve_ok rhs (e e' : E) x : arc_solve F A lin rhs e = (e', Ok x) ->
  ls_solve lin (a_ls (e_s e)) rhs = Ok x /\ e_s e' = e_s e /\ exists s, e_w e' = set_w_stats s (e_w e).
Proof. unfold arc_solve. intros H. msimp. simpl in *. repeat split; auto. eexists. reflexivity. Qed.

Lemma arc_nn_ok u l (e e' : E) nn : arc_nn F A sys u l e = (e', Ok nn) -> arc_inv (e_s e) ->
  e' = e /\ nn = constraint (y_ndim sys) (a_theta (e_s e)) (w_duds (e_w e)) (w_dlds (e_w e)) u l (w_h (e_w e)) (w_u (e_w e)) (w_l (e_w e)).
Proof.
  intros H Inv. unfold arc_nn in H. apply mbind_ok in H. destruct H as (x1 & s1 & G1 & H). apply getw_inv in G1. destruct G1 as [-> ->].
  apply mbind_ok in H. destruct H as (x1 & s1 & G1 & H). apply gets_inv in G1. destruct G1 as [-> ->].
  apply mbind_ok in H. destruct H as (x1 & du & G1 & H). apply ret_inv in H. destruct H as [-> ->]. unfold constraint.
  destruct (Rltb_spec 0 (a_theta (e_s e))) as [L|L].
  - apply lift_inv in G1. destruct G1 as [-> G1]. split; [reflexivity|]. do 3 f_equal.
    refine (for_range_partial (fun k a => a = sumn k _) _ 0 (y_ndim sys) _ _ _ G1 _ _); [lia | reflexivity|].
    intros i a a' Hi -> B. simpl.
    destruct (vget (w_u (e_w e)) i) as [x|m|] eqn:E1; try discriminate B. apply (vget_ok_inv _ _ _ 0%R) in E1. destruct E1 as [_ E1].
    destruct (vget u i) as [y|m|] eqn:E2; try discriminate B. apply (vget_ok_inv _ _ _ 0%R) in E2. destruct E2 as [_ E2].
    destruct (vget (w_duds (e_w e)) i) as [z|m|] eqn:E3; try discriminate B. apply (vget_ok_inv _ _ _ 0%R) in E3. destruct E3 as [_ E3].
    injection B as <-. rewrite E1, E2, E3. reflexivity.
  - apply ret_inv in G1. destruct G1 as [-> ->]. split; [reflexivity|]. destruct Inv as [I|I]; [rewrite I; ring | lra].
Qed.

(** same workspace up to the statistics *)
Definition eqw (w w' : work) : Prop := exists s, w' = set_w_stats s w.
Lemma eqw_trans w1 w2 w3 : eqw w1 w2 -> eqw w2 w3 -> eqw w1 w3.
Proof. intros [s ->] [s' ->]. exists s'. reflexivity. Qed.

Lemma arc_bordering_ok nn (e e' : E) xo : c_bordering cfg = true ->
  arc_bordering F A cfg sys lin nn e = (e', Ok xo) ->
  eqw (e_w e) (e_w e') /\ a_theta (e_s e') = a_theta (e_s e) /\
  forall x, xo = Some x ->
  arc_correction cfg sys lin (a_theta (e_s e)) (w_duds (e_w e)) (w_dlds (e_w e)) nn (w_u (e_w e)) (w_l (e_w e)) (w_gg (e_w e)) x.
Proof.
  intros Hb H. unfold arc_bordering in H. apply mbind_ok in H. destruct H as (e1 & [] & H1 & H).
  apply arc_jac_ok in H1. destruct H1 as (s1 & m & f0 & W1 & J1 & F1 & T1 & X1).
  apply mbind_ok in H. destruct H as (e2 & [] & H2 & H). injection H2 as <-.
  apply mbind_ok in H. destruct H as (e2 & sx & H2 & H). apply gets_inv in H2. destruct H2 as [-> ->].
  apply mbind_ok in H. destruct H as (e3 & dua & H3 & H). apply arc_solve_ok in H3. destruct H3 as (L3 & S3 & s3 & W3). simpl in L3, S3, W3.
  apply mbind_ok in H. destruct H as (e4 & [] & H4 & H). injection H4 as <-.
  apply mbind_ok in H. destruct H as (e4 & w & H4 & H). apply getw_inv in H4. destruct H4 as [-> ->].
  apply mbind_ok in H. destruct H as (e5 & dub & H5 & H). apply arc_solve_ok in H5. destruct H5 as (L5 & S5 & s5 & W5). simpl in L5, S5, W5.
  apply mbind_ok in H. destruct H as (e6 & [] & H6 & H). injection H6 as <-. cbv zeta in H. simpl in H.
  rewrite W3, W1 in *. simpl in H, L5, W5. rewrite S3 in L5, S5. simpl in L5, S5. rewrite T1 in H.
  assert (Q : eqw (e_w e) (e_w e5)) by (exists s5; rewrite W5; reflexivity).
  destruct (Rltb_spec (Rabs (a_theta (e_s e) * inner (w_duds (e_w e)) dua - (2 - a_theta (e_s e)) * w_dlds (e_w e))) H_MIN) as [Ld|Ld].
  - apply ret_inv in H. destruct H as [-> ->]. simpl. split; [exact Q|]. split; [rewrite S5; exact T1 | intros; discriminate].
  - set (den := (a_theta (e_s e) * inner (w_duds (e_w e)) dua - (2 - a_theta (e_s e)) * w_dlds (e_w e))%R) in *.
    apply mbind_ok in H. destruct H as (e7 & x1 & H7 & H). apply lift_inv in H7. destruct H7 as [-> H7].
    apply mbind_ok in H. destruct H as (e7 & x2 & H8 & H). apply lift_inv in H8. destruct H8 as [-> H8].
    apply mbind_ok in H. destruct H as (e7 & [] & H9 & H). injection H9 as <-. apply ret_inv in H. destruct H as [-> ->]. simpl.
    split; [exact Q|]. split; [rewrite S5; exact T1|]. intros x Hx. injection Hx as <-.
    set (dl := ((nn - a_theta (e_s e) * inner (w_duds (e_w e)) dub) / den)%R) in *.
    set (n := y_ndim sys) in *.
    assert (B : n <= length dua /\ n <= length dub /\ n <= length x1 /\ length x1 = length (a_x (e_s e1)) /\
                forall i, i < n -> nth i x1 0%R = (- dl * nth i dua 0 - nth i dub 0)%R).
    { refine (for_range_partial (fun k x => k <= length dua /\ k <= length dub /\ k <= length x /\ length x = length (a_x (e_s e1)) /\
                forall i, i < k -> nth i x 0%R = (- dl * nth i dua 0 - nth i dub 0)%R) _ 0 n _ _ _ H7 _ _); [lia | repeat split; try lia|].
      intros i x x' Hi (B1 & B2 & B3 & B4 & B5) B.
      destruct (vget dua i) as [ya|?|] eqn:E1; try discriminate B. apply (vget_ok_inv _ _ _ 0%R) in E1. destruct E1 as [E1 E1'].
      destruct (vget dub i) as [yb|?|] eqn:E2; try discriminate B. apply (vget_ok_inv _ _ _ 0%R) in E2. destruct E2 as [E2 E2'].
      simpl in B. unfold vset in B. destruct (Nat.ltb_spec i (length x)); [|discriminate B]. injection B as <-.
      rewrite upd_length. repeat split; try lia. intros j Hj. destruct (Nat.eq_dec j i) as [->|N].
      - rewrite nth_upd_eq by lia. rewrite E1', E2'. reflexivity.
      - rewrite nth_upd_ne by lia. apply B5. lia. }
    destruct B as (B1 & B2 & B3 & B4 & B5). unfold vset in H8. destruct (Nat.ltb_spec n (length x1)) as [Lx|Lx]; [|discriminate H8].
    injection H8 as <-.
    exists m, (a_ggl (e_s e1)), f0, (a_ls (e_s e1)). split; [exact J1|]. rewrite Hb. split; [exact F1|].
    exists dua, dub. rewrite upd_length. fold n. split; [exact L3|]. split; [exact L5|]. split; [exact B1|]. split; [exact B2|]. split; [exact Lx|].
    cbv zeta. fold den. split; [lra|]. rewrite nth_upd_eq by lia. split; [reflexivity|].
    intros i Hi. rewrite nth_upd_ne by lia. apply B5. exact Hi.
Qed.

Lemma arc_augmented_ok nn (e e' : E) xo : c_bordering cfg = false ->
  arc_augmented F A cfg sys lin nn e = (e', Ok xo) ->
  eqw (e_w e) (e_w e') /\ a_theta (e_s e') = a_theta (e_s e) /\
  forall x, xo = Some x ->
  arc_correction cfg sys lin (a_theta (e_s e)) (w_duds (e_w e)) (w_dlds (e_w e)) nn (w_u (e_w e)) (w_l (e_w e)) (w_gg (e_w e)) x.
Proof.
  intros Hb H. unfold arc_augmented in H. apply mbind_ok in H. destruct H as (e1 & [] & H1 & H).
  apply arc_aa_ok in H1. destruct H1 as (s1 & m & aa & f0 & W1 & J1 & A1 & F1 & T1 & X1).
  apply mbind_ok in H. destruct H as (e2 & [] & H2 & H). injection H2 as <-.
  apply mbind_ok in H. destruct H as (e2 & sx & H2 & H). apply gets_inv in H2. destruct H2 as [-> ->].
  apply mbind_ok in H. destruct H as (e4 & w & H4 & H). apply getw_inv in H4. destruct H4 as [-> ->].
  apply mbind_ok in H. destruct H as (e7 & b1 & H7 & H). apply lift_inv in H7. destruct H7 as [-> H7].
  apply mbind_ok in H. destruct H as (e7 & b2 & H8 & H). apply lift_inv in H8. destruct H8 as [-> H8].
  apply mbind_ok in H. destruct H as (e7 & [] & H9 & H). injection H9 as <-. 
  apply mbind_ok in H. destruct H as (e5 & x & H5 & H). apply arc_solve_ok in H5. destruct H5 as (L5 & S5 & s5 & W5). simpl in L5, S5, W5.
  apply mbind_ok in H. destruct H as (e6 & [] & H6 & H). injection H6 as <-. apply ret_inv in H. destruct H as [-> ->]. simpl in *.
  rewrite W1 in W5, H7. simpl in W5, H7.
  split; [exists s5; rewrite W5; reflexivity|]. split; [rewrite S5; exact T1|]. intros x' Hx. injection Hx as <-.
  set (n := y_ndim sys) in *.
  assert (B : n <= length b1 /\ forall i, i < n -> i < length (w_gg (e_w e)) /\ nth i b1 0%R = (- nth i (w_gg (e_w e)) 0)%R).
  { refine (for_range_partial (fun k x => k <= length x /\
              forall i, i < k -> i < length (w_gg (e_w e)) /\ nth i x 0%R = (- nth i (w_gg (e_w e)) 0)%R) _ 0 n _ _ _ H7 _ _); [lia | split; [lia|intros; lia]|].
    intros i y y' Hi (B1 & B2) B.
    destruct (vget (w_gg (e_w e)) i) as [ya|?|] eqn:E1; try discriminate B. apply (vget_ok_inv _ _ _ 0%R) in E1. destruct E1 as [E1 E1'].
    simpl in B. unfold vset in B. destruct (Nat.ltb_spec i (length y)); [|discriminate B]. injection B as <-.
    rewrite upd_length. split; [lia|]. intros j Hj. destruct (Nat.eq_dec j i) as [->|N].
    - rewrite nth_upd_eq by lia. rewrite E1'. auto.
    - rewrite nth_upd_ne by lia. apply B2. lia. }
  destruct B as (B1 & B2). unfold vset in H8. destruct (Nat.ltb_spec n (length b1)) as [Lx|Lx]; [|discriminate H8]. injection H8 as <-.
  exists m, (a_ggl (e_s e1)), f0, (a_ls (e_s e1)). split; [exact J1|]. rewrite Hb.
  exists aa, (upd b1 n (- nn)%R). fold n. rewrite upd_length. split; [exact A1|]. split; [exact F1|]. split; [exact L5|]. split; [exact Lx|].
  split; [apply nth_upd_eq; lia|]. intros i Hi. rewrite nth_upd_ne by lia. apply B2, Hi.
Qed.

Definition arc_done (sc : vec) (theta : R) (t : vec) (tl : R) (u : vec) (l h : R) (u' : vec) (l' : R) : Prop :=
  let nn := constraint (y_ndim sys) theta t tl u l h u' l' in
  exists g, residual_at sys u' l' g /\
    ((below (c_tol_abs_residual cfg) g /\ (Rabs nn < c_tol_abs_residual cfg)%R) \/
     (c_disable_rel_delta cfg = false /\
      exists x r, arc_correction cfg sys lin theta t tl nn u' l' g x /\ rms_scaled x sc = Ok r /\ (r <= 1)%R)).

(** what stays the same during the iterations *)
Definition arc_fixed (sc : vec) (theta : R) (t : vec) (tl h : R) (e : E) : Prop :=
  er_scaling (w_err (e_w e)) = sc /\ w_duds (e_w e) = t /\ w_dlds (e_w e) = tl /\ w_h (e_w e) = h /\ a_theta (e_s e) = theta.

Lemma arc_iterate_ok u l sc theta t tl h (e e' : E) :
  arc_iterate F A fin cfg sys lin u l e = (e', Ok Success) -> theta = 0%R \/ theta = 1%R ->
  er_dconv (w_err (e_w e)) = false -> arc_fixed sc theta t tl h e ->
  w_n_iteration (e_w e') = w_n_iteration (e_w e) /\ arc_fixed sc theta t tl h e' /\
  (converged (w_err (e_w e')) = true -> arc_done sc theta t tl u l h (w_u (e_w e')) (w_l (e_w e'))) /\
  (converged (w_err (e_w e')) = false ->
     er_dconv (w_err (e_w e')) = false /\ w_n_iteration (e_w e) <> c_n_iteration_max cfg - 1).
Proof.
  intros H Ht Hd (Hsc & Hdu & Hdl & Hh & Hth). unfold arc_iterate in H. apply mbind_ok in H. destruct H as (e1 & [] & H1 & H).
  apply call_gg_ok in H1. destruct H1 as (g & s1 & a1 & G1 & W1 & S1).
  apply mbind_ok in H. destruct H as (e2 & nn & H2 & H). apply arc_nn_ok in H2; [|unfold arc_inv; rewrite S1, Hth; exact Ht].
  destruct H2 as [-> Hnn]. rewrite S1, W1 in Hnn. simpl in Hnn. rewrite Hth, Hdu, Hdl, Hh in Hnn.
  apply mbind_ok in H. destruct H as (e2 & bad & H2 & H). unfold an_residual in H2.
  destruct (analyze_residual _ _ _ _ _ _) as [er b] eqn:Er. injection H2 as <- <-. destruct b; [discriminate H|].
  rewrite W1 in Er. simpl in Er. apply residual_conv in Er. destruct Er as (R1 & R2 & R3).
  unfold is_conv in H at 1. apply mbind_ok in H. destruct H as (e3 & c & H3 & H).
  apply mbind_ok in H3. destruct H3 as (x3 & w3 & H3 & H3'). apply getw_inv in H3. destruct H3 as [-> ->].
  apply ret_inv in H3'. destruct H3' as [-> ->]. simpl in H.
  assert (RA : residual_at sys (w_u (e_w e)) (w_l (e_w e)) g) by (do 3 eexists; exact G1).
  destruct (converged er) eqn:Ec.
  - apply ret_inv in H. destruct H as [-> _]. unfold arc_fixed. simpl. rewrite W1, S1. simpl. rewrite R2.
    split; [reflexivity|]. split; [auto|]. split; [intros _ | rewrite Ec; discriminate].
    exists g. split; [exact RA|]. left. unfold converged in Ec. rewrite R1, Hd, orb_false_r in Ec.
    rewrite <- Hnn. apply R3, Ec.
  - apply mbind_ok in H. destruct H as (e4 & xo & H4 & H).
    set (e3 := set_e_w (set_w_err er (e_w e1)) e1) in *.
    assert (Q : eqw (e_w e3) (e_w e4) /\ a_theta (e_s e4) = a_theta (e_s e3) /\
      forall x, xo = Some x -> arc_correction cfg sys lin (a_theta (e_s e3)) (w_duds (e_w e3)) (w_dlds (e_w e3)) nn (w_u (e_w e3)) (w_l (e_w e3)) (w_gg (e_w e3)) x).
    { destruct (c_bordering cfg) eqn:Hb; [apply arc_bordering_ok | apply arc_augmented_ok]; auto. }
    destruct Q as ([s4 W4] & T4 & Q4). unfold e3 in W4, T4, Q4. simpl in W4, T4, Q4. rewrite W1 in W4, Q4. simpl in W4, Q4.
    rewrite S1, Hth in T4, Q4. rewrite Hdu, Hdl in Q4.
    destruct xo as [x|]; [|apply ret_inv in H; destruct H as [_ H]; discriminate H].
    specialize (Q4 x eq_refl).
    apply after_solve_ok in H. destruct H as (er' & D & H). rewrite W4 in D. simpl in D.
    apply delta_conv in D. destruct D as (D1 & D2 & D3).
    assert (X : er_dconv er' = true -> c_disable_rel_delta cfg = false /\ exists r, rms_scaled x sc = Ok r /\ (r <= 1)%R).
    { intros Q. destruct (D3 Q) as [Z|Z]; [congruence|]. rewrite R2, Hsc in Z. exact Z. }
    unfold converged in Ec. apply orb_false_elim in Ec. destruct Ec as [Ec1 Ec2].
    destruct H as [(C1 & C2 & C3) | (C1 & C2 & e8 & e9 & y & U1 & U1' & U2 & U3 & U3')].
    + unfold arc_fixed. rewrite C2, C3. simpl. rewrite W4. simpl. rewrite D2, R2. split; [reflexivity|]. split; [auto|]. split; [intros _ | congruence].
      exists g. split; [exact RA|]. right. unfold converged in C1. rewrite D1, Ec1 in C1. simpl in C1.
      destruct (X C1) as (X1 & r & X2 & X3). split; [exact X1|]. exists x, r. rewrite <- Hnn. auto.
    + rewrite W4 in C2. simpl in C2. apply mbind_ok in U2. destruct U2 as (x1 & w & Q & U2). apply getw_inv in Q. destruct Q as [-> ->].
      apply mbind_ok in U2. destruct U2 as (x1 & v & Q & U2). apply lift_inv in Q. destruct Q as [-> _].
      apply mbind_ok in U2. destruct U2 as (x1 & xn & Q & U2). apply lift_inv in Q. destruct Q as [-> _].
      apply modw_inv in U2. subst e9. simpl in U3, U3'. unfold arc_fixed. rewrite U3, U3', U1, U1'. simpl. rewrite W4. simpl. rewrite D2, R2.
      split; [reflexivity|]. split; [auto|]. split; [congruence|]. intros _. unfold converged in C1. apply orb_false_elim in C1. destruct C1 as [_ C1].
      auto.
Qed.

Lemma arc_done_conv n theta t tl u l h u' l' :
  n <= length u ->
  arc_done (map (fun v => c_tol_abs_delta cfg + c_tol_rel_delta cfg * Rabs v)%R (firstn n u ++ [l])) theta t tl u l h u' l' ->
  arc_conv cfg sys lin n theta t tl u l h u' l'.
Proof.
  intros Hn (g & RA & H). exists g. split; [exact RA|]. destruct H as [H | (H1 & x & r & C & Rm & Rl)]; [left; exact H|].
  right. split; [exact H1|]. exists x. split; [exact C|].
  apply rms_scaled_spec in Rm. destruct Rm as [L ->]. unfold scaled_rms.
  replace (sumn (length x) _) with (sumn (length x) (fun i => (nth i x 0 / nth i (map (fun v => c_tol_abs_delta cfg + c_tol_rel_delta cfg * Rabs v) (firstn n u ++ [l])) 0) ^ 2))%R; [exact Rl|].
  apply sumn_ext. intros i Hi. set (f := fun v => (c_tol_abs_delta cfg + c_tol_rel_delta cfg * Rabs v)%R).
  rewrite map_length in L. rewrite (nth_indep (map f _) 0%R (f 0%R)) by (rewrite map_length; lia). rewrite map_nth. reflexivity.
Qed.

(** A successful step of the arc-length method ends at a state where both the residual and the
    constraint are below the tolerance, or where the correction is. *)
Theorem C68_arclength u l st (e e' : E) :
  1 <= c_n_iteration_max cfg -> a_theta (e_s e) = 0%R \/ a_theta (e_s e) = 1%R ->
  arc_step F A fin cfg sys lin u l st e = (e', Ok Success) ->
  exists theta h, (theta = 0 \/ theta = 1)%R /\
  arc_conv cfg sys lin (length (er_scaling (w_err (e_w e))) - 1) theta (w_duds (e_w e)) (w_dlds (e_w e)) u l h (w_u (e_w e')) (w_l (e_w e')).
Proof.
  intros Hm Hth0 H. unfold arc_step in H. apply mbind_ok in H. destruct H as (e1 & [] & H1 & H).
  set (n := length (er_scaling (w_err (e_w e))) - 1).
  set (sc := map (fun v => c_tol_abs_delta cfg + c_tol_rel_delta cfg * Rabs v)%R (firstn n u ++ [l])).
  set (B := fun x : E => (er_dconv (w_err (e_w x)) = false /\ er_scaling (w_err (e_w x)) = sc /\
                          w_duds (e_w x) = w_duds (e_w e) /\ w_dlds (e_w x) = w_dlds (e_w e)) /\ (a_theta (e_s x) = 0 \/ a_theta (e_s x) = 1)%R).
  assert (I1 : n <= length u /\ B e1).
  { apply step_begin_ok in H1. destruct H1 as (er & s1 & R1 & W1 & S1). apply err_reset_spec in R1. destruct R1 as (R1 & R2 & R3).
    unfold B. rewrite W1, S1. simpl. auto 6. }
  destruct I1 as [Ln I1].
  apply mbind_ok in H. destruct H as (e2 & [] & H2 & H).
  assert (I2 : B e2).
  { assert (K : keeps B (arc_lambda F A l st)).
    { unfold arc_lambda. kp ltac:(intros; match goal with Q : B _ |- _ => first [exact Q | destruct Q as [Q _]; split; [exact Q | left; reflexivity]] end). }
    specialize (K e1 I1). rewrite H2 in K. exact K. }
  apply mbind_ok in H. destruct H as (e3 & [] & H3 & H).
  assert (I3 : B e3).
  { assert (K : keeps B (arc_predict F A u l st)).
    { unfold arc_predict. kp ltac:(intros; match goal with Q : B _ |- _ => exact Q end). }
    specialize (K e2 I2). rewrite H3 in K. exact K. }
  apply mbind_ok in H. destruct H as (e4 & s4 & H4 & H). apply call_update_w in H4. destruct H4 as [W4 S4].
  assert (I4 : B e4) by (unfold B; rewrite W4, S4; exact I3).
  destruct (failure s4) eqn:Fs; [apply ret_inv in H; destruct H as [_ <-]; discriminate Fs|].
  apply mbind_ok in H. destruct H as (e5 & [] & H5 & H).
  assert (I5 : B e5).
  { assert (K : keeps B (push_debug cfg)).
    { unfold push_debug. kp ltac:(intros; match goal with Q : B _ |- _ => exact Q end). }
    specialize (K e4 I4). rewrite H5 in K. exact K. }
  apply mbind_ok in H. destruct H as (e6 & [] & H6 & H). injection H6 as <-.
  set (e6 := set_e_s _ e5) in H. assert (I6 : B e6) by exact I5.
  apply mbind_ok in H. destruct H as (e7 & r & H7 & H). apply mbind_ok in H. destruct H as (e8 & [] & H8 & H).
  apply ret_inv in H. destruct H as [-> <-]. simpl in H8.
  destruct I6 as ((J1 & J2 & J3 & J4) & J5).
  exists (a_theta (e_s e6)), (w_h (e_w e6)). split; [exact J5|].
  apply arc_done_conv; [exact Ln|]. fold sc.
  assert (U : w_u (e_w e8) = w_u (e_w e7) /\ w_l (e_w e8) = w_l (e_w e7)).
  { assert (K : keeps (fun x : E => w_u (e_w x) = w_u (e_w e7) /\ w_l (e_w x) = w_l (e_w e7)) (arc_update_tangent F A cfg sys lin)).
    { unfold arc_update_tangent, arc_jac, arc_aa, arc_solve, arc_write_matrix.
      kp ltac:(intros; match goal with Q : w_u _ = _ /\ _ |- _ => exact Q end);
      intros z Hz; try (destruct (y_jac sys _ _ _ _ _) as [? [[? ?]|?|]]; exact Hz); destruct (ls_factorize lin _ _) as [? ?]; exact Hz. }
    specialize (K e7 (conj eq_refl eq_refl)). rewrite H8 in K. exact K. }
  destruct U as [-> ->].
  set (BB := fun x : E => er_dconv (w_err (e_w x)) = false /\
               arc_fixed sc (a_theta (e_s e6)) (w_duds (e_w e)) (w_dlds (e_w e)) (w_h (e_w e6)) x).
  refine (iterations_ok cfg _ BB (fun x => arc_done sc (a_theta (e_s e6)) (w_duds (e_w e)) (w_dlds (e_w e)) u l (w_h (e_w e6)) (w_u (e_w x)) (w_l (e_w x)))
            _ _ _ _ e6 e7 Hm _ H7); auto.
  - intros x x' [Bx1 Bx2] Hx. destruct (arc_iterate_ok _ _ _ _ _ _ _ _ _ Hx J5 Bx1 Bx2) as (N1 & N2 & N3 & N4).
    split; [exact N1|]. split; [exact N3|]. intros C. destruct (N4 C) as (N5 & N6). repeat split; auto; apply N2.
  - split; [exact J1|]. unfold arc_fixed. auto.
Qed.
End Arclength.

(* ------------------------------------------------------------------ *)
(** * Classification of the failures *)

(** what a failure status of a step tells about the state it left *)
Definition fail_reason {A} (fin : R -> bool) cfg (sys : system A) (s : status) (w : work) : Prop :=
  match s with
  | NanOrInfResidual => exists g nn, residual_at sys (w_u w) (w_l w) g /\ fin (Rmax (vmax g) (Rabs nn)) = false
  | NanOrInfDelta => fin (er_dmax (w_err w)) = false
  | LargeDelta => (c_delta_max_allowed cfg < er_dmax (w_err w))%R
  | ContinuedResidualDivergence => c_n_cont_r_max cfg <= er_n_cont_r (w_err w)
  | ContinuedDeltaDivergence => c_n_cont_d_max cfg <= er_n_cont_d (w_err w)
  | ReachedMaxIterations => w_n_iteration w = c_n_iteration_max cfg - 1
  | SecondaryUpdateError m => exists f b u l a a', y_update sys = Some f /\ f b u (w_u w) l (w_l w) a = (a', Err m)
  | SecondaryUpdateTerminate => exists f b u l a a', y_update sys = Some f /\ f b u (w_u w) l (w_l w) a = (a', Ok true)
  | BorderingSmallDenominator => c_bordering cfg = true /\ c_method cfg = Arclength
  | Rejection | UnmetStopCriterion | SmallStepsize | ContinuedFailure | ContinuedRejection => False
  | Success => True
  end.

Section Failures.
Context {S A : Type} (fin : R -> bool) (cfg : config) (sys : system A).
Lemma reason_stats s w t : fail_reason fin cfg sys s w -> fail_reason fin cfg sys s (set_w_stats t w).
Proof. destruct s; exact (fun H => H). Qed.

Lemma update_reason b u l (e e' : env S A) s : call_update sys b u l e = (e', Ok s) -> fail_reason fin cfg sys s (e_w e').
Proof.
  unfold call_update. destruct (y_update sys) as [f|] eqn:Ef; [|intros H; apply ret_inv in H; destruct H as [-> ->]; exact I].
  destruct (f b u (w_u (e_w e)) l (w_l (e_w e)) (e_a e)) as [a r] eqn:Er. intros H. injection H as <- H.
  destruct r as [[|]|m|]; simpl in H; try discriminate H; injection H as <-; simpl; auto; do 6 eexists; split; try reflexivity; try exact Ef; exact Er.
Qed.

Lemma after_reason x upd u l (e e' : env S A) s :
  after_solve fin cfg sys x upd u l e = (e', Ok s) -> fail_reason fin cfg sys s (e_w e').
Proof.
  unfold after_solve. intros H. apply mbind_ok in H. destruct H as (e1 & bad & H1 & H).
  unfold an_delta in H1. destruct (analyze_delta _ _ _ _ _) as [[er b]|m|] eqn:Ed; try discriminate H1.
  injection H1 as <- <-. destruct b.
  { apply ret_inv in H. destruct H as [-> ->]. simpl. unfold analyze_delta in Ed. destruct (c_disable_rel_delta cfg); [discriminate Ed|].
    destruct (negb (fin (vmax x))) eqn:Ff.
    - injection Ed as <-. simpl. apply negb_true_iff, Ff.
    - destruct (rms_scaled _ _); discriminate Ed. }
  unfold is_conv in H. apply mbind_ok in H. destruct H as (e2 & c & H2 & H).
  apply mbind_ok in H2. destruct H2 as (x3 & w3 & H3 & H3'). apply getw_inv in H3. destruct H3 as [-> ->].
  apply ret_inv in H3'. destruct H3' as [-> ->]. simpl in H.
  destruct (converged er) eqn:Ec; [apply ret_inv in H; destruct H as [-> ->]; exact I|].
  apply mbind_ok in H. destruct H as (e3 & st & H3 & H). unfold an_failures in H3. simpl in H3.
  destruct (capture_failures _ _ _) as [[er2 st2]|m|] eqn:Ef; try discriminate H3. injection H3 as <- <-.
  destruct (failure st2) eqn:F.
  { apply ret_inv in H. destruct H as [-> ->]. unfold capture_failures in Ef.
    destruct (Rltb_spec (c_delta_max_allowed cfg) (er_dmax er)) as [Lt|Lt]; [injection Ef as <- <-; exact Lt|].
    destruct (Nat.leb_spec (c_n_cont_r_max cfg) (er_n_cont_r er)); [injection Ef as <- <-; assumption|].
    destruct (Nat.leb_spec (c_n_cont_d_max cfg) (er_n_cont_d er)); [injection Ef as <- <-; assumption|].
    unfold usub in Ef. destruct (1 <=? _); [|discriminate Ef]. simpl in Ef. injection Ef as <- <-.
    destruct (Nat.eqb_spec (w_n_iteration (e_w e)) (c_n_iteration_max cfg - 1)); [assumption | exact I]. }
  apply mbind_ok in H. destruct H as (e4 & y & H4 & H). apply mbind_ok in H. destruct H as (e5 & st & H5 & H).
  apply update_reason in H5. destruct (failure st); apply ret_inv in H; destruct H as [-> ->]; [exact H5 | exact I].
Qed.

Lemma residual_reason nn (e e1 e2 : env S A) bad :
  call_gg sys e = (e1, Ok tt) -> an_residual fin cfg nn e1 = (e2, Ok bad) -> bad = true ->
  fail_reason fin cfg sys NanOrInfResidual (e_w e2).
Proof.
  intros H1 H2 ->. apply call_gg_ok in H1. destruct H1 as (g & s1 & a1 & G1 & W1 & S1).
  unfold an_residual in H2. destruct (analyze_residual _ _ _ _ _ _) as [er b] eqn:Er. injection H2 as <- ->.
  simpl. rewrite W1. simpl. exists g, nn. split; [do 3 eexists; exact G1|].
  unfold analyze_residual in Er. rewrite W1 in Er. simpl in Er. destruct (negb _) eqn:Ff in Er; [|destruct (_ && _) in Er; discriminate Er].
  apply negb_true_iff, Ff.
Qed.

Lemma iterations_reason (iterate : M (env S A) status) :
  (forall e e' s, iterate e = (e', Ok s) -> fail_reason fin cfg sys s (e_w e')) ->
  forall e e' s, iterations cfg iterate e = (e', Ok s) -> fail_reason fin cfg sys s (e_w e').
Proof.
  intros It e e' s H. unfold iterations in H.
  apply mbind_ok in H. destruct H as (e1 & [] & H1 & H).
  apply mbind_ok in H. destruct H as (e2 & st & H2 & H).
  apply mbind_ok in H. destruct H as (e3 & w & H3 & H). apply getw_inv in H3. destruct H3 as [-> ->].
  apply mbind_ok in H. destruct H as (e4 & [] & H4 & H). injection H4 as <-. apply ret_inv in H. destruct H as [-> ->].
  apply reason_stats.
  set (Q := fun (y : status) (e : env S A) => fail_reason fin cfg sys y (e_w e)).
  match type of H2 with mloop ?n 0 ?body _ ?x = _ =>
    assert (T : triple (fun _ : env S A => Success = Success) (mloop n 0 body Success) Q (fun _ => True)) end.
  { apply (t_loop _ (fun _ y _ => y = Success)).
    - intros j y Hj x _.
      destruct ((_ : M (env S A) (bool * status)) x) as [x' [[b z]|m|]] eqn:E; auto. simpl.
      apply mbind_ok in E. destruct E as (x1 & [] & E1 & E).
      apply mbind_ok in E. destruct E as (x2 & st2 & E2 & E). apply It in E2.
      destruct (failure st2) eqn:F.
      + apply ret_inv in E. destruct E as [-> E]. injection E as -> ->. exact E2.
      + apply success_inv in F. subst st2.
        apply mbind_ok in E. destruct E as (x3 & w & E3 & E). apply mbind_ok in E. destruct E as (x4 & [] & E4 & E).
        destruct (converged _).
        * apply ret_inv in E. destruct E as [-> E]. injection E as -> ->. exact I.
        * apply mbind_ok in E. destruct E as (x5 & [] & E5 & E). apply ret_inv in E. destruct E as [-> E]. injection E as -> ->. reflexivity.
    - intros y x ->. exact I. }
  specialize (T e1 eq_refl). rewrite H2 in T. exact T.
Qed.
End Failures.

Section FailuresOfMethods.
Context {F A : Type} (fin : R -> bool) (cfg : config) (sys : system A) (lin : linsolver F).

(** A failure of a step of the natural method has the cause that its status names. *)
Theorem C68_natural_failure u l st (e e' : env (natst F) A) s :
  c_method cfg = Natural -> nat_step F A fin cfg sys lin u l st e = (e', Ok s) -> fail_reason fin cfg sys s (e_w e').
Proof.
  intros _ H. unfold nat_step in H. do 3 (apply mbind_ok in H; destruct H as (? & [] & _ & H)).
  apply mbind_ok in H. destruct H as (e4 & s4 & H4 & H). apply (update_reason fin cfg) in H4.
  destruct (failure s4) eqn:Fs; [apply ret_inv in H; destruct H as [-> ->]; exact H4|].
  apply mbind_ok in H. destruct H as (e5 & [] & _ & H).
  revert H. apply iterations_reason. clear. intros e e' s H. unfold nat_iterate in H.
  apply mbind_ok in H. destruct H as (e1 & [] & H1 & H).
  apply mbind_ok in H. destruct H as (e2 & bad & H2 & H).
  destruct bad; [apply ret_inv in H; destruct H as [-> ->]; exact (residual_reason _ _ _ _ _ _ _ _ H1 H2 eq_refl)|].
  apply mbind_ok in H. destruct H as (e3 & c & _ & H).
  destruct c; [apply ret_inv in H; destruct H as [-> ->]; exact I|].
  do 4 (apply mbind_ok in H; destruct H as (? & ? & _ & H)). apply after_reason in H. exact H.
Qed.

(** The same for the arc-length method. *)
Theorem C68_arclength_failure u l st (e e' : env (arcst F) A) s :
  c_method cfg = Arclength -> arc_step F A fin cfg sys lin u l st e = (e', Ok s) -> fail_reason fin cfg sys s (e_w e').
Proof.
  intros Hm H. unfold arc_step in H. do 3 (apply mbind_ok in H; destruct H as (? & [] & _ & H)).
  apply mbind_ok in H. destruct H as (e4 & s4 & H4 & H). apply (update_reason fin cfg) in H4.
  destruct (failure s4) eqn:Fs; [apply ret_inv in H; destruct H as [-> ->]; exact H4|].
  do 2 (apply mbind_ok in H; destruct H as (? & [] & _ & H)).
  apply mbind_ok in H. destruct H as (e6 & r & H6 & H). apply mbind_ok in H. destruct H as (e7 & [] & H7 & H).
  apply ret_inv in H. destruct H as [-> ->].
  assert (Q : fail_reason fin cfg sys r (e_w e6)).
  { revert H6. apply iterations_reason. clear - Hm. intros e e' s H. unfold arc_iterate in H.
    apply mbind_ok in H. destruct H as (e1 & [] & H1 & H).
    apply mbind_ok in H. destruct H as (e1' & nn & Hn & H).
    assert (e1' = e1).
    { unfold arc_nn in Hn. apply mbind_ok in Hn. destruct Hn as (x1 & s1 & G1 & Hn). apply getw_inv in G1. destruct G1 as [-> ->].
      apply mbind_ok in Hn. destruct Hn as (x1 & s1 & G1 & Hn). apply gets_inv in G1. destruct G1 as [-> ->].
      apply mbind_ok in Hn. destruct Hn as (x1 & du & G1 & Hn). apply ret_inv in Hn. destruct Hn as [-> ->].
      destruct (Rltb _ _); [apply lift_inv in G1 | apply ret_inv in G1]; apply G1. }
    subst e1'.
    apply mbind_ok in H. destruct H as (e2 & bad & H2 & H).
    destruct bad; [apply ret_inv in H; destruct H as [-> ->]; exact (residual_reason _ _ _ _ _ _ _ _ H1 H2 eq_refl)|].
    apply mbind_ok in H. destruct H as (e3 & c & _ & H).
    destruct c; [apply ret_inv in H; destruct H as [-> ->]; exact I|].
    apply mbind_ok in H. destruct H as (e4 & xo & H4 & H).
    destruct xo as [x|]; [apply after_reason in H; exact H|].
    apply ret_inv in H. destruct H as [-> ->]. simpl. split; [|exact Hm].
    destruct (c_bordering cfg); [reflexivity|]. exfalso. unfold arc_augmented in H4.
    repeat (apply mbind_ok in H4; destruct H4 as (? & ? & _ & H4)). apply ret_inv in H4. destruct H4 as [_ H4]. discriminate H4. }
  destruct r; simpl in H7; try exact I; apply ret_inv in H7; destruct H7 as [-> _]; exact Q.
Qed.
End FailuresOfMethods.

(* ------------------------------------------------------------------ *)
(** * Divergence counters *)

(** number of times that a sequence increases twice in a row *)
Definition cont_div (r : list R) : nat :=
  length (filter (fun k => Rltb (nth k r 0%R) (nth (k + 1) r 0%R) && Rltb (nth (k + 1) r 0%R) (nth (k + 2) r 0%R))
                 (seq 0 (length r - 2))).

(** the passes [it], [it+1], ... of a step, with residuals (G, N) and corrections x
    (solver_natural.rs:193-254, solver_arclength.rs:533-672: the two analyses of a pass) *)
Fixpoint passes (fin : R -> bool) (c : config) (it : nat) (hist : list (vec * R * vec)) (e : iterr) : res iterr :=
  match hist with
  | [] => Ok e
  | (g, nn, x) :: t =>
      let '(e, bad) := analyze_residual fin c it g nn e in
      if bad then Err "residual" else
      ' (e, bad) <- analyze_delta fin c it x e ;;
      if bad then Err "delta" else passes fin c (S it) t e
  end.

Definition rises (r : list R) : bool := (2 <=? length r) && Rltb (nth (length r - 2) r 0%R) (nth (length r - 1) r 0%R).

Lemma cont_div_snoc r v : cont_div (r ++ [v]) =
  cont_div r + (if rises r && rises (r ++ [v]) then 1 else 0).
Proof.
  unfold cont_div. rewrite app_length. simpl (length [v]).
  destruct (Nat.leb_spec 2 (length r)) as [L|L].
  2:{ unfold rises. rewrite (proj2 (Nat.leb_gt 2 (length r))) by lia. simpl.
      replace (length r + 1 - 2) with 0 by lia. replace (length r - 2) with 0 by lia. reflexivity. }
  replace (length r + 1 - 2) with (S (length r - 2)) by lia.
  rewrite seq_S, filter_app, app_length. simpl.
  f_equal.
  - f_equal. apply filter_ext_in. intros k Hk. apply in_seq in Hk. rewrite !app_nth1 by lia. reflexivity.
  - unfold rises. rewrite app_length. simpl (length [v]).
    rewrite (proj2 (Nat.leb_le 2 (length r))) by lia. rewrite (proj2 (Nat.leb_le 2 (length r + 1))) by lia.
    replace (length r + 1 - 2) with (length r - 1) by lia. replace (length r + 1 - 1) with (length r) by lia.
    replace (length r - 2 + 1) with (length r - 1) by lia. replace (length r - 2 + 2) with (length r) by lia.
    rewrite (app_nth1 r [v] 0%R (n := length r - 2)) by lia. rewrite (app_nth1 r [v] 0%R (n := length r - 1)) by lia.
    rewrite nth_middle. simpl andb. destruct (Rltb _ _ && Rltb _ _); reflexivity.
Qed.

Lemma rises_snoc r v : rises (r ++ [v]) = if length r =? 0 then false else Rltb (nth (length r - 1) r 0%R) v.
Proof.
  unfold rises. rewrite app_length. simpl (length [v]).
  destruct (Nat.eqb_spec (length r) 0) as [E|E]; [rewrite (proj2 (Nat.leb_gt 2 (length r + 1))) by lia; reflexivity|].
  rewrite (proj2 (Nat.leb_le 2 (length r + 1))) by lia.
  replace (length r + 1 - 2) with (length r - 1) by lia. replace (length r + 1 - 1) with (length r) by lia.
  rewrite (app_nth1 r [v] 0%R (n := length r - 1)) by lia. rewrite nth_middle. reflexivity.
Qed.

Definition counted (rs ds : list R) (e : iterr) : Prop :=
  (er_rdiv e = rises rs /\ er_n_cont_r e = cont_div rs /\ (rs <> [] -> er_rmax_prev e = nth (length rs - 1) rs 0%R)) /\
  (er_ddiv e = rises ds /\ er_n_cont_d e = cont_div ds /\ (ds <> [] -> er_dmax_prev e = nth (length ds - 1) ds 0%R)).

Lemma residual_counted fin c g nn rs ds e e' : counted rs ds e ->
  analyze_residual fin c (length rs) g nn e = (e', false) -> counted (rs ++ [Rmax (vmax g) (Rabs nn)]) ds e'.
Proof.
  intros [(R1 & R2 & R3) D] H. unfold analyze_residual in H. destruct (fin _); simpl in H; [|discriminate].
  injection H as <-. set (v := Rmax (vmax g) (Rabs nn)) in *.
  assert (E : rises (rs ++ [v]) = if length rs =? 0 then false else Rltb (er_rmax_prev e) v).
  { rewrite rises_snoc. destruct (Nat.eqb_spec (length rs) 0) as [E|E]; [reflexivity|]. rewrite R3; [reflexivity|]. intros ->. apply E. reflexivity. }
  split.
  - split; [|split].
    + rewrite E. destruct (_ && _); reflexivity.
    + rewrite cont_div_snoc, E, <- R1. destruct (er_rdiv e && _); simpl; lia.
    + intros _. rewrite app_length. simpl (length [v]). replace (length rs + 1 - 1) with (length rs) by lia. rewrite nth_middle.
      destruct (_ && _); reflexivity.
  - destruct (_ && _); exact D.
Qed.

Lemma delta_counted fin c x rs ds e e' : counted rs ds e -> c_disable_rel_delta c = false ->
  analyze_delta fin c (length ds) x e = Ok (e', false) -> counted rs (ds ++ [vmax x]) e'.
Proof.
  intros [D (R1 & R2 & R3)] Hd H. unfold analyze_delta in H. rewrite Hd in H. destruct (fin _); simpl in H; [|discriminate].
  destruct (rms_scaled _ _) as [q|m|]; try discriminate H. simpl in H.
  injection H as <-. set (v := vmax x) in *.
  assert (E : rises (ds ++ [v]) = if length ds =? 0 then false else Rltb (er_dmax_prev e) v).
  { rewrite rises_snoc. destruct (Nat.eqb_spec (length ds) 0) as [E|E]; [reflexivity|]. rewrite R3; [reflexivity|]. intros ->. apply E. reflexivity. }
  split.
  - destruct (_ && _); exact D.
  - split; [|split].
    + rewrite E. destruct (_ && _); reflexivity.
    + rewrite cont_div_snoc, E, <- R1. destruct (er_ddiv e && _); simpl; lia.
    + intros _. rewrite app_length. simpl (length [v]). replace (length ds + 1 - 1) with (length ds) by lia. rewrite nth_middle.
      destruct (_ && _); reflexivity.
Qed.

(** After any history of passes, the two counters of a step are the numbers of times that the
    maximum residual and the maximum correction went up twice in a row (the latter is not looked at
    when the control of the correction is disabled). *)
Theorem C68_counters fin c u l e0 e1 hist e2 :
  err_reset c u l e0 = Ok e1 -> passes fin c 0 hist e1 = Ok e2 ->
  er_n_cont_r e2 = cont_div (map (fun p => Rmax (vmax (fst (fst p))) (Rabs (snd (fst p)))) hist) /\
  er_n_cont_d e2 = if c_disable_rel_delta c then 0 else cont_div (map (fun p => vmax (snd p)) hist).
Proof.
  intros H0.
  assert (C0 : counted [] [] e1).
  { unfold err_reset in H0. destruct (usub _ _); try discriminate H0. simpl in H0.
    destruct (for_range _ _ _ _); try discriminate H0. simpl in H0. destruct (vset _ _ _); try discriminate H0. simpl in H0.
    injection H0 as <-. repeat split; simpl; try reflexivity; congruence. }
  clear H0 u l e0. destruct (c_disable_rel_delta c) eqn:Hd.
  - enough (Q : forall hist rs e, counted rs [] e -> passes fin c (length rs) hist e = Ok e2 ->
      counted (rs ++ map (fun p => Rmax (vmax (fst (fst p))) (Rabs (snd (fst p)))) hist) [] e2).
    { intros H. destruct (Q hist [] e1 C0 H) as [(_ & Q1 & _) (_ & Q2 & _)]. auto. }
    clear hist. induction hist as [|[[g nn] x] t IH]; intros rs e C H.
    + injection H as <-. simpl. rewrite !app_nil_r. exact C.
    + simpl in H. destruct (analyze_residual _ _ _ _ _ _) as [ea [|]] eqn:Ea; [discriminate H|].
      unfold analyze_delta in H. rewrite Hd in H. simpl in H.
      apply (residual_counted _ _ _ _ _ _ _ _ C) in Ea.
      replace (S (length rs)) with (length (rs ++ [Rmax (vmax g) (Rabs nn)])) in H by (rewrite app_length; simpl; lia).
      apply IH in H; [|exact Ea]. rewrite <- !app_assoc in H. exact H.
  - enough (Q : forall hist rs ds e, length rs = length ds -> counted rs ds e -> passes fin c (length rs) hist e = Ok e2 ->
      counted (rs ++ map (fun p => Rmax (vmax (fst (fst p))) (Rabs (snd (fst p)))) hist) (ds ++ map (fun p => vmax (snd p)) hist) e2).
    { intros H. destruct (Q hist [] [] e1 eq_refl C0 H) as [(_ & Q1 & _) (_ & Q2 & _)]. auto. }
    clear hist. induction hist as [|[[g nn] x] t IH]; intros rs ds e Le C H.
    + injection H as <-. simpl. rewrite !app_nil_r. exact C.
    + simpl in H. destruct (analyze_residual _ _ _ _ _ _) as [ea [|]] eqn:Ea; [discriminate H|].
      destruct (analyze_delta _ _ _ _ _) as [[eb [|]]|m|] eqn:Eb; try discriminate H. simpl in H.
      apply (residual_counted _ _ _ _ _ _ _ _ C) in Ea. rewrite Le in Eb. apply (delta_counted _ _ _ _ _ _ _ Ea Hd) in Eb.
      replace (S (length rs)) with (length (rs ++ [Rmax (vmax g) (Rabs nn)])) in H by (rewrite app_length; simpl; lia).
      apply (IH (rs ++ [Rmax (vmax g) (Rabs nn)]) (ds ++ [vmax x])) in H; [|rewrite !app_length; simpl; lia | exact Eb].
      rewrite <- !app_assoc in H. exact H.
Qed.

(** FINDING: the counters are not reset when the divergence stops, so a step may fail with
    ContinuedResidualDivergence although the residual never went up three times in a row: the maximum
    residuals 1, 2, 3, 1, 2, 3 count as two continued divergences (iteration_error.rs:152-155). *)
Theorem C68_cumulative_refuted :
  exists e1 e2, let rs := [1; 2; 3; 1; 2; 3]%R in
    err_reset (ex_cfg 1 1 false) [0%R] 0 (err_new 1) = Ok e1 /\
    passes (fun _ => true) (ex_cfg 1 1 false) 0 (map (fun r => ([r], 0%R, [0%R])) rs) e1 = Ok e2 /\
    snd (match capture_failures (ex_cfg 1 1 false) 5 e2 with Ok p => p | _ => (e2, Success) end) = ContinuedResidualDivergence /\
    c_n_cont_r_max (ex_cfg 1 1 false) = 2 /\
    ~ (exists k, k + 3 < length rs /\
        (nth k rs 0 < nth (k + 1) rs 0 /\ nth (k + 1) rs 0 < nth (k + 2) rs 0 /\ nth (k + 2) rs 0 < nth (k + 3) rs 0)%R).
Proof.
  assert (Q : exists e1, err_reset (ex_cfg 1 1 false) [0%R] 0 (err_new 1) = Ok e1 /\ er_dmax e1 = 0%R) by (eexists; split; reflexivity).
  destruct Q as (e1 & Q & Qd).
  assert (P : exists e2, passes (fun _ => true) (ex_cfg 1 1 false) 0 (map (fun r => ([r], 0%R, [0%R])) [1; 2; 3; 1; 2; 3]%R) e1 = Ok e2 /\ er_dmax e2 = 0%R).
  { clear Q. set (c := ex_cfg 1 1 false). generalize 0. revert e1 Qd.
    induction [1; 2; 3; 1; 2; 3]%R as [|r t IH]; intros e1 Qd n; [exists e1; auto|].
    simpl map. unfold passes; fold passes. unfold analyze_residual, analyze_delta. cbn [negb c_disable_rel_delta c ex_cfg bind].
    apply IH. destruct (_ && _); exact Qd. }
  destruct P as (e2 & P & Pd). exists e1, e2. cbv zeta. split; [exact Q|]. split; [exact P|].
  pose proof (proj1 (C68_counters _ _ _ _ _ _ _ _ Q P)) as C. cbn [map fst snd] in C.
  assert (V : forall r, (0 <= r)%R -> Rmax (vmax [r]) (Rabs 0) = r).
  { intros r Hr. unfold vmax. simpl. rewrite Rabs_R0, (Rabs_right r) by lra. unfold Rmax. repeat destruct Rle_dec; lra. }
  rewrite !V in C by lra.
  split; [|split; [reflexivity|]].
  - unfold capture_failures. rewrite Pd. simpl c_delta_max_allowed.
    rewrite (proj2 (Rltb_false 1000 0)) by lra. simpl c_n_cont_r_max. rewrite C. unfold cont_div. cbn [length map seq Nat.sub Nat.add nth filter].
    repeat match goal with |- context [Rltb ?a ?b] => first [rewrite (proj2 (Rltb_true a b)) by lra | rewrite (proj2 (Rltb_false a b)) by lra] end.
    reflexivity.
  - intros (k & Hk & H). destruct k as [|[|[|k]]]; simpl in H; try lra; simpl in Hk; lia.
Qed.

(* ------------------------------------------------------------------ *)
(** * Runs *)

(** a chain of converged steps *)
Inductive conv_chain (step : vec -> R -> vec -> R -> Prop) : vec -> R -> vec -> R -> Prop :=
| cc_nil : forall u l, conv_chain step u l u l
| cc_snoc : forall u l u1 l1 u2 l2, conv_chain step u l u1 l1 -> step u1 l1 u2 l2 -> conv_chain step u l u2 l2.

Lemma path_conv {S A} (ops : solver_ops S A) (Inv : S -> Prop) st (stepR : vec -> R -> vec -> R -> Prop) :
  (forall u l u' l', acc_step ops Inv st u l u' l' -> stepR u l u' l') ->
  forall u0 l0 n k u l, path ops Inv st u0 l0 n k u l -> conv_chain stepR u0 l0 u l.
Proof.
  intros HS u0 l0 n k u l P. induction P; [constructor | econstructor; eauto].
Qed.

(** Whatever the outcome of a run, the state left to the caller is reached from the initial one by
    steps each of which converged: natural method. *)
Theorem C68_run_natural {F A} fin cfg (sys : system A) (lin : linsolver F) ndim dir st ddl d d' r :
  1 <= c_n_iteration_max cfg ->
  solve _ _ fin cfg (natural_ops F A fin cfg sys lin) ndim dir st ddl d = (d', r) ->
  conv_chain (fun u l u' l' => exists n, nat_conv cfg sys lin n u l u' l') (d_u d) (d_l d) (d_u d') (d_l d').
Proof.
  intros Hm H. destruct (C66_path _ _ _ _ _ _ _ _ _ _ _ (natural_ok fin cfg sys lin dir) H) as (n & k & P).
  revert P. apply path_conv. intros u l u' l' (e & e' & _ & E & -> & ->).
  eexists. exact (C68_natural fin cfg sys lin _ _ _ _ _ Hm E).
Qed.

(** Arc-length method: the residual and the constraint of every accepted step converged. *)
Theorem C68_run_arclength {F A} fin cfg (sys : system A) (lin : linsolver F) ndim dir st ddl d d' r :
  1 <= c_n_iteration_max cfg ->
  solve _ _ fin cfg (arclength_ops F A fin cfg sys lin) ndim dir st ddl d = (d', r) ->
  conv_chain (fun u l u' l' => exists n theta t tl h, (theta = 0 \/ theta = 1)%R /\ arc_conv cfg sys lin n theta t tl u l h u' l')
    (d_u d) (d_l d) (d_u d') (d_l d').
Proof.
  intros Hm H. destruct (C66_path _ _ _ _ _ _ _ _ _ _ _ (arclength_ok fin cfg sys lin dir) H) as (n & k & P).
  revert P. apply path_conv. intros u l u' l' (e & e' & I & E & -> & ->).
  destruct (C68_arclength fin cfg sys lin _ _ _ _ _ Hm I E) as (theta & h & Q1 & Q2).
  exists (length (er_scaling (w_err (e_w e))) - 1), theta, (w_duds (e_w e)), (w_dlds (e_w e)), h. auto.
Qed.

(** non-vacuity: a run with an accepted step; both hypotheses of [C68_run_natural] hold *)
Example C68_run_example :
  exists d', ex_run (ex_cfg 1 10 false) None true (Steps 1) (ddl_constant 0.5) = (d', Ok Success) /\
    1 <= c_n_iteration_max (ex_cfg 1 10 false) /\ n_accepted d' = 1 /\ d_l (ex_drv (ex_cfg 1 10 false)) <> d_l d'.
Proof.
  eexists. split. { rrun. } split; [simpl; lia|]. split; [reflexivity|]. simpl. lra.
Qed.

Print Assumptions C68_run_natural.
Print Assumptions C68_run_arclength.
Print Assumptions C68_natural.
Print Assumptions C68_arclength.
Print Assumptions C68_natural_failure.
Print Assumptions C68_arclength_failure.
Print Assumptions C68_counters.
Print Assumptions C68_cumulative_refuted.
