(** C94 (continued): the residuals recorded during a step (stats.rs:160-203 and the step functions). *)
From Verif Require Import RSum Sparse_Lib Nonlin_Drv_Thm Nonlin_Err_Thm Nonlin_Pred_Thm.
Local Open Scope nat_scope.

(* ------------------------------------------------------------------ *)
(** * Specification *)

(** r is the largest number of the list *)
Definition largest (l : list R) (r : R) : Prop := In r l /\ forall x, In x l -> (x <= r)%R.

(* ------------------------------------------------------------------ *)
(** * Proofs *)

Lemma vmax_largest g nn : largest (map Rabs g ++ [Rabs nn]) (Rmax (vmax g) (Rabs nn)).
Proof.
  induction g as [|a g [IH1 IH2]].
  - unfold largest, vmax. simpl. rewrite Rmax_right by apply Rabs_pos. split; [auto|]. intros x [<-|[]]. lra.
  - change (vmax (a :: g)) with (Rmax (Rabs a) (vmax g)). split.
    + rewrite <- Rmax_assoc. unfold Rmax at 1. destruct (Rle_dec _ _); simpl; auto.
    + intros x [<-|Hx]; [rewrite <- Rmax_assoc; apply Rmax_l|]. rewrite <- Rmax_assoc. apply (Rle_trans _ _ _ (IH2 x Hx)), Rmax_r.
Qed.

Lemma residual_rmax fin cfg it gg nn e e' b : analyze_residual fin cfg it gg nn e = (e', b) ->
  er_rmax e' = Rmax (vmax gg) (Rabs nn) /\ er_dconv e' = er_dconv e /\ (b = true -> er_rconv e' = er_rconv e).
Proof.
  unfold analyze_residual. destruct (negb _); intros H; injection H as <- <-; [auto|].
  destruct (_ && _); simpl; splits; auto; discriminate.
Qed.
Lemma delta_rmax fin cfg it x e e' b : analyze_delta fin cfg it x e = Ok (e', b) ->
  er_rmax e' = er_rmax e /\ er_rconv e' = er_rconv e /\ (b = true -> er_dconv e' = er_dconv e).
Proof.
  unfold analyze_delta. destruct (c_disable_rel_delta cfg); [intros H; injection H as <- <-; auto|].
  destruct (negb _); [intros H; injection H as <- <-; auto|]. simpl. destruct (rms_scaled x (er_scaling e)) as [r|m|]; try discriminate.
  simpl. intros H. injection H as <- <-. destruct (_ && _); simpl; splits; auto; discriminate.
Qed.
Lemma failures_conv cfg it e e' s : capture_failures cfg it e = Ok (e', s) -> converged e' = converged e /\ (failure s = false -> e' = e /\ it <> c_n_iteration_max cfg - 1).
Proof.
  intros H. destruct (failure s) eqn:Fs.
  - split; [|discriminate]. unfold capture_failures in H.
    destruct (Rltb _ _); [injection H as <- <-; reflexivity|]. destruct (_ <=? _); [injection H as <- <-; reflexivity|]. destruct (_ <=? _); [injection H as <- <-; reflexivity|].
    destruct (usub _ _); try discriminate H. simpl in H. injection H as <- <-. reflexivity.
  - apply success_inv in Fs. subst s. apply failures_ok in H. destruct H as [-> H]. auto.
Qed.

Lemma err_reset_conv cfg u l e e' : err_reset cfg u l e = Ok e' -> converged e' = false.
Proof.
  unfold err_reset. destruct (usub _ _); try discriminate. simpl. destruct (for_range _ _ _ _); try discriminate. simpl.
  destruct (vset _ _ _); try discriminate. simpl. intros H. injection H as <-. reflexivity.
Qed.

Section Shared.
Context {S A : Type}.
(** what is recorded *)
Definition recs (e : env S A) : option (list (list R)) * list R * nat :=
  (st_residuals (w_stats (e_w e)), st_tmp_residuals (w_stats (e_w e)), st_n_iteration_total (w_stats (e_w e))).

Lemma after_solve_all fin cfg (sys : system A) x upd u l (e e' : env S A) s :
  (forall e1 e2 y, upd e1 = (e2, Ok y) -> w_err (e_w e2) = w_err (e_w e1) /\ w_n_iteration (e_w e2) = w_n_iteration (e_w e1)) ->
  converged (w_err (e_w e)) = false ->
  after_solve fin cfg sys x upd u l e = (e', Ok s) ->
  w_n_iteration (e_w e') = w_n_iteration (e_w e) /\
  (failure s = true -> converged (w_err (e_w e')) = false) /\
  (failure s = false -> converged (w_err (e_w e')) = true ->
     exists er, e_w e' = set_w_err er (e_w e) /\ er_rmax er = er_rmax (w_err (e_w e)) /\ e_s e' = e_s e) /\
  (failure s = false -> converged (w_err (e_w e')) = false -> w_n_iteration (e_w e) <> c_n_iteration_max cfg - 1).
Proof.
  intros Up Hc. unfold after_solve. intros H. apply mbind_ok in H. destruct H as (e1 & bad & H1 & H).
  unfold an_delta in H1. destruct (analyze_delta _ _ _ _ _) as [[er b]|m|] eqn:Ed; try discriminate H1.
  apply delta_rmax in Ed. destruct Ed as (D1 & D2 & D3).
  injection H1 as <- <-. destruct b.
  { apply ret_inv in H. destruct H as [-> ->]. simpl. splits; auto; try discriminate.
    intros _. unfold converged in *. rewrite D2, (D3 eq_refl). exact Hc. }
  unfold is_conv in H. apply mbind_ok in H. destruct H as (e2 & c & H2 & H). apply mbind_ok in H2. destruct H2 as (x3 & w3 & H3 & H3').
  apply getw_inv in H3. destruct H3 as [-> ->]. apply ret_inv in H3'. destruct H3' as [-> ->]. simpl in H.
  destruct (converged er) eqn:Ec.
  { apply ret_inv in H. destruct H as [-> ->]. simpl. splits; auto; try discriminate; [|congruence].
    intros _ _. exists er. auto. }
  apply mbind_ok in H. destruct H as (e3 & st & H3 & H). unfold an_failures in H3. simpl in H3.
  destruct (capture_failures _ _ _) as [[er2 st2]|m|] eqn:Ef; try discriminate H3. injection H3 as <- <-.
  apply failures_conv in Ef. destruct Ef as [F1 F2]. rewrite Ec in F1.
  destruct (failure st2) eqn:F; [apply ret_inv in H; destruct H as [-> ->]; simpl; splits; auto; congruence|].
  destruct (F2 eq_refl) as [-> Hit].
  apply mbind_ok in H. destruct H as (e4 & y & H4 & H). apply mbind_ok in H. destruct H as (e5 & st & H5 & H).
  apply call_update_w in H5. destruct H5 as [W1 W2]. apply Up in H4. destruct H4 as [U1 U2]. simpl in U1, U2.
  assert (Q : e_w e' = e_w e4 /\ (failure s = false -> True)). { destruct (failure st); apply ret_inv in H; destruct H as [-> _]; auto. }
  destruct Q as [Q _]. rewrite Q, U1, U2. splits; auto. congruence.
Qed.

(** the loop, for either `iterate` *)
Lemma iterations_rec cfg (iterate : M (env S A) status) (B C : env S A -> Prop) :
  c_record_residuals cfg = true ->
  (forall e s, B e -> B (set_e_w (set_w_stats s (e_w e)) e)) ->
  (forall e s, C e -> C (set_e_w (set_w_stats s (e_w e)) e)) ->
  (forall e k, B e -> B (set_e_w (set_w_n_iteration k (e_w e)) e)) ->
  (forall e e' s, B e -> iterate e = (e', Ok s) -> recs e' = recs e /\
     (failure s = true -> converged (w_err (e_w e')) = false) /\
     (failure s = false ->
        w_n_iteration (e_w e') = w_n_iteration (e_w e) /\
        (converged (w_err (e_w e')) = true -> C e') /\
        (converged (w_err (e_w e')) = false -> B e' /\ w_n_iteration (e_w e) <> c_n_iteration_max cfg - 1))) ->
  forall e e' s rr t, 1 <= c_n_iteration_max cfg -> B e -> recs e = (Some rr, [], t) -> iterations cfg iterate e = (e', Ok s) ->
  exists rs t', t < t' <= t + c_n_iteration_max cfg /\ recs e' = (Some (rr ++ (if failure s then [] else [rs])), rs, t') /\
    (failure s = false -> C e' /\ t' = t + length rs /\ rs <> [] /\ last rs 0%R = er_rmax (w_err (e_w e'))).
Proof.
  intros Hr Bs Cs Bn It e e' s rr t Hm He Hrr H. unfold iterations in H.
  apply mbind_ok in H. destruct H as (e1 & [] & H1 & H). apply modw_inv in H1.
  apply mbind_ok in H. destruct H as (e2 & st & H2 & H).
  set (I := fun (i : nat) (y : status) (x : env S A) => B x /\ w_n_iteration (e_w x) = i /\ (i <> 0 -> i <> c_n_iteration_max cfg) /\
              exists rs, length rs = i /\ recs x = (Some rr, rs, t + i)).
  set (Q := fun (y : status) (x : env S A) => converged (w_err (e_w x)) = negb (failure y) /\ exists rs t', t < t' <= t + c_n_iteration_max cfg /\
              recs x = (Some rr, rs, t') /\ (failure y = false -> C x /\ t' = t + length rs /\ rs <> [] /\ last rs 0%R = er_rmax (w_err (e_w x)))).
  match type of H2 with mloop ?n 0 ?body _ ?x = _ =>
    assert (T : triple (I 0 Success) (mloop n 0 body Success) Q (fun _ => True)) end.
  { apply t_loop.
    - intros j y Hj x (X1 & X2 & X3 & rs & X4 & X5).
      destruct ((_ : M (env S A) (bool * status)) x) as [x' [[b z]|m|]] eqn:E; try exact I0; auto.
      simpl. unfold mbind at 1 in E. unfold modst, modw, modify in E. simpl in E.
      match type of E with mbind iterate _ ?y = _ => set (x1 := y) in E end.
      assert (B1 : B x1) by (apply Bs, X1).
      assert (R1 : recs x1 = (Some rr, rs, t + j + 1)). { unfold recs in X5 |- *. injection X5 as Y1 Y2 Y3. simpl. rewrite Y1, Y2, Y3. reflexivity. }
      apply mbind_ok in E. destruct E as (x2 & st2 & E2 & E).
      destruct (It _ _ _ B1 E2) as (K1 & K2 & K3). rewrite R1 in K1.
      destruct (failure st2) eqn:F.
      { apply ret_inv in E. destruct E as [-> E]. injection E as -> ->. simpl. split; [rewrite F; apply K2; reflexivity|].
        exists rs, (t + j + 1). split; [lia|]. split; [exact K1|]. congruence. }
      destruct (K3 eq_refl) as (K4 & K5 & K6).
      apply mbind_ok in E. destruct E as (x3 & w & E3 & E). apply getw_inv in E3. destruct E3 as [-> ->].
      apply mbind_ok in E. destruct E as (x4 & [] & E4 & E). injection E4 as <-.
      assert (R2 : forall k, recs (set_e_w (set_w_n_iteration k (set_w_stats (record_append cfg (er_rmax (w_err (e_w x2))) (w_stats (e_w x2))) (e_w x2))) x2) =
                     (Some rr, rs ++ [er_rmax (w_err (e_w x2))], t + j + 1)).
      { intros k. unfold recs in K1 |- *. injection K1 as Y1 Y2 Y3. simpl. unfold record_append. rewrite Hr. simpl. rewrite Y1, Y2, Y3. reflexivity. }
      destruct (converged (w_err (e_w x2))) eqn:Ec.
      + apply ret_inv in E. destruct E as [-> E]. injection E as -> ->. simpl. split; [rewrite F; exact Ec|].
        exists (rs ++ [er_rmax (w_err (e_w x2))]), (t + j + 1). split; [lia|]. split; [exact (R2 0)|]. intros _.
        split; [apply Cs, K5; reflexivity|]. rewrite app_length. simpl. split; [lia|].
        split; [destruct rs; discriminate | apply last_last].
      + apply mbind_ok in E. destruct E as (x5 & [] & E5 & E). injection E5 as <-.
        apply ret_inv in E. destruct E as [-> E]. injection E as -> ->. simpl.
        destruct (K6 eq_refl) as [K7 K8]. change (w_n_iteration (e_w x1)) with (w_n_iteration (e_w x)) in K4, K8.
        split; [|split; [simpl; lia | split; [lia|]]].
        * apply (Bn (set_e_w (set_w_stats _ (e_w x2)) x2)). apply Bs, K7.
        * exists (rs ++ [er_rmax (w_err (e_w x2))]). rewrite app_length. simpl. split; [lia|].
          replace (t + (j + 1)) with (t + j + 1) by lia. exact (R2 _).
    - intros y x (_ & _ & X3 & _). exfalso. lia. }
  specialize (T e1).
  assert (I0 : I 0 Success e1).
  { subst e1. split; [apply Bn, He|]. split; [reflexivity|]. split; [lia|]. exists []. split; [reflexivity|]. rewrite Nat.add_0_r. exact Hrr. }
  specialize (T I0). rewrite H2 in T. destruct T as (T1 & rs & t' & T2 & T3 & T4).
  apply mbind_ok in H. destruct H as (e3 & w & G & H). apply getw_inv in G. destruct G as [-> ->].
  apply mbind_ok in H. destruct H as (e3 & [] & G & H). apply modst_inv in G. subst e3. apply ret_inv in H. destruct H as [-> ->].
  exists rs, t'. split; [exact T2|]. unfold recs in T3 |- *. injection T3 as Y1 Y2 Y3. simpl. unfold record_stop. rewrite Hr, T1.
  destruct (failure st) eqn:Fs; simpl.
  - rewrite Y1, Y2, Y3, app_nil_r. split; [reflexivity|discriminate].
  - rewrite Y1, Y2. simpl. rewrite Y2, Y3. split; [reflexivity|]. intros _.
    destruct (T4 eq_refl) as (T5 & T6). split; [apply Cs, T5|exact T6].
Qed.

(** the start of a step *)
Lemma step_begin_rec cfg (sys : system A) u l (e e' : env S A) x : c_record_residuals cfg = true ->
  step_begin cfg sys u l e = (e', Ok x) -> recs e' = (Some (recorded e), [], iter_total e) /\ converged (w_err (e_w e')) = false.
Proof.
  intros Hr H1. pose proof H1 as H0. apply step_begin_ok in H0. destruct H0 as (er & s0 & R1 & W1 & _). 
  split; [|rewrite W1; exact (err_reset_conv _ _ _ _ _ R1)]. clear W1 R1.
  unfold step_begin in H1. apply mbind_ok in H1. destruct H1 as (x1 & w1 & G1 & H1). apply getw_inv in G1. destruct G1 as [-> ->].
  assert (K : forall f, keeps (fun x : env S A => e_w x = e_w e) (call_args f)).
  { intros f. kp ltac:(intros; match goal with Q : e_w _ = _ |- _ => exact Q end). }
  apply mbind_ok in H1. destruct H1 as (x2 & [] & G2 & H1).
  assert (K2 : e_w x2 = e_w e).
  { destruct (w_auto (e_w e)); [|apply ret_inv in G2; destruct G2 as [-> _]; reflexivity]. specialize (K (y_backup sys) e eq_refl). rewrite G2 in K. exact K. }
  apply mbind_ok in H1. destruct H1 as (x3 & [] & G3 & H1).
  assert (K3 : e_w x3 = e_w e). { specialize (K (y_prepare sys) x2 K2). rewrite G3 in K. exact K. }
  msimp. unfold recs, recorded, iter_total. simpl. unfold record_start. rewrite Hr, K3.
  destruct (st_residuals (w_stats (e_w e))) eqn:Er; simpl; rewrite ?Er; reflexivity.
Qed.
End Shared.

(* ------------------------------------------------------------------ *)
(** * Natural method *)
Section Natural.
Context {F A : Type} (fin : R -> bool) (cfg : config) (sys : system A) (lin : linsolver F).
Let E := env (natst F) A.

Lemma nat_iterate_keeps u l r : keeps (fun x : E => recs x = r) (nat_iterate F A fin cfg sys lin u l).
Proof.
  unfold nat_iterate, call_gg, nat_jac, nat_solve, write_matrix, after_solve, is_conv.
  kp ltac:(intros; match goal with Q : recs _ = _ |- _ => exact Q end).
  all: intros z Hz; try (destruct (y_gg sys _ _ _ _) as [? [?|?|]]; exact Hz); try (destruct (y_jac sys _ _ _ _ _) as [? [[? ?]|?|]]; exact Hz); destruct (ls_factorize lin _ _) as [? ?]; exact Hz.
Qed.

Lemma nat_iterate_rec u l (e e' : E) s : converged (w_err (e_w e)) = false -> nat_iterate F A fin cfg sys lin u l e = (e', Ok s) ->
  recs e' = recs e /\ (failure s = true -> converged (w_err (e_w e')) = false) /\
  (failure s = false -> w_n_iteration (e_w e') = w_n_iteration (e_w e) /\
     (converged (w_err (e_w e')) = true -> exists g, residual_at sys (w_u (e_w e')) (w_l (e_w e')) g /\ largest (map Rabs g ++ [Rabs 0]) (er_rmax (w_err (e_w e')))) /\
     (converged (w_err (e_w e')) = false -> w_n_iteration (e_w e) <> c_n_iteration_max cfg - 1)).
Proof.
  intros Hc H. pose proof (nat_iterate_keeps u l (recs e) e eq_refl) as K. rewrite H in K. split; [exact K|]. clear K.
  unfold nat_iterate in H. apply mbind_ok in H. destruct H as (e1 & [] & H1 & H).
  apply call_gg_ok in H1. destruct H1 as (g & s1 & a1 & G1 & W1 & S1).
  apply mbind_ok in H. destruct H as (e2 & bad & H2 & H). unfold an_residual in H2.
  destruct (analyze_residual _ _ _ _ _ _) as [er b] eqn:Er. injection H2 as <- <-.
  rewrite W1 in Er. simpl in Er. apply residual_rmax in Er. destruct Er as (R1 & R2 & R3).
  destruct b. { apply ret_inv in H. destruct H as [-> ->]. simpl. split; [|discriminate]. intros _. unfold converged in *. rewrite R2, R3; auto. }
  unfold is_conv in H at 1. apply mbind_ok in H. destruct H as (e3 & c & H3 & H).
  apply mbind_ok in H3. destruct H3 as (x3 & w3 & H3 & H3'). apply getw_inv in H3. destruct H3 as [-> ->].
  apply ret_inv in H3'. destruct H3' as [-> ->]. simpl in H.
  assert (RA : residual_at sys (w_u (e_w e)) (w_l (e_w e)) g) by (do 3 eexists; exact G1).
  assert (L : largest (map Rabs g ++ [Rabs 0]) (er_rmax er)) by (rewrite R1; apply vmax_largest).
  destruct (converged er) eqn:Ec.
  { apply ret_inv in H. destruct H as [-> ->]. simpl. rewrite W1. simpl. split; [discriminate|]. intros _. split; [reflexivity|]. split; [|congruence]. eauto. }
  apply mbind_ok in H. destruct H as (e4 & [] & H4 & H). apply nat_jac_ok in H4. destruct H4 as (s4 & m & gl & f0 & W4 & J4 & F4).
  simpl in W4. rewrite W1 in W4. simpl in W4.
  apply mbind_ok in H. destruct H as (e5 & [] & H5 & H). injection H5 as <-.
  apply mbind_ok in H. destruct H as (e6 & w & H6 & H). apply getw_inv in H6. destruct H6 as [-> ->].
  apply mbind_ok in H. destruct H as (e7 & x & H7 & H). apply nat_solve_ok in H7. destruct H7 as [L7 W7]. simpl in L7, W7.
  rewrite W4 in W7.
  apply after_solve_all in H.
  - rewrite W7 in H. simpl in H. destruct H as (Q1 & Q2 & Q3 & Q4). split; [exact Q2|]. intros Fs. split; [exact Q1|]. split; [|exact (Q4 Fs)].
    intros C. destruct (Q3 Fs C) as (er' & Q5 & Q6 & _). rewrite Q5. simpl. exists g. rewrite Q6. auto.
  - intros x1 x2 y U2. apply mbind_ok in U2. destruct U2 as (x3 & w & Q & U2). apply getw_inv in Q. destruct Q as [-> ->].
    apply mbind_ok in U2. destruct U2 as (x3 & w & Q & U2). apply gets_inv in Q. destruct Q as [-> ->].
    apply mbind_ok in U2. destruct U2 as (x3 & v & Q & U2). apply lift_inv in Q. destruct Q as [-> _]. apply modw_inv in U2. subst x2. auto.
  - rewrite W7. simpl. exact Ec.
Qed.

(** Recording the residuals, a successful step appends one list, with one number for each of its
    iterations, the last of which is the largest component of G at the state the step ends at; a failed
    step appends nothing. *)
Theorem C94_recorded_natural u l st (e e' : E) s :
  c_record_residuals cfg = true -> 1 <= c_n_iteration_max cfg ->
  nat_step F A fin cfg sys lin u l st e = (e', Ok s) ->
  if failure s then recorded e' = recorded e
  else exists rs, recorded e' = recorded e ++ [rs] /\ iter_total e' = iter_total e + length rs /\ 1 <= length rs <= c_n_iteration_max cfg /\
    exists g, residual_at sys (w_u (e_w e')) (w_l (e_w e')) g /\ largest (map Rabs g ++ [Rabs 0]) (last rs 0%R).
Proof.
  intros Hr Hm H. unfold nat_step in H. apply mbind_ok in H. destruct H as (e1 & [] & H1 & H).
  apply step_begin_rec in H1; [|exact Hr].
  set (B := fun x : E => recs x = (Some (recorded e), [], iter_total e) /\ converged (w_err (e_w x)) = false).
  assert (I1 : B e1) by exact H1.
  apply mbind_ok in H. destruct H as (e2 & [] & H2 & H).
  assert (I2 : B e2).
  { assert (K : keeps B (nat_lambda F A l st)).
    { unfold nat_lambda. kp ltac:(intros; match goal with Q : B _ |- _ => exact Q end). }
    specialize (K e1 I1). rewrite H2 in K. exact K. }
  apply mbind_ok in H. destruct H as (e3 & [] & H3 & H).
  assert (I3 : B e3).
  { assert (K : keeps B (nat_predict F A cfg sys lin u l)).
    { unfold nat_predict, nat_jac, nat_solve, write_matrix. kp ltac:(intros; match goal with Q : B _ |- _ => exact Q end);
      intros z Hz; [destruct (y_jac sys _ _ _ _ _) as [a [[m g]|m|]]; exact Hz | destruct (ls_factorize lin _ _) as [f r]; exact Hz]. }
    specialize (K e2 I2). rewrite H3 in K. exact K. }
  apply mbind_ok in H. destruct H as (e4 & s4 & H4 & H). apply call_update_w in H4. destruct H4 as [W4 S4].
  assert (I4 : B e4) by (unfold B, recs; rewrite W4; exact I3).
  destruct (failure s4) eqn:Fs.
  { apply ret_inv in H. destruct H as [-> ->]. rewrite Fs. unfold recorded at 1. destruct I4 as [I4 _]. injection I4 as -> _ _. reflexivity. }
  apply mbind_ok in H. destruct H as (e5 & [] & H5 & H).
  assert (I5 : B e5).
  { assert (K : keeps B (push_debug cfg)).
    { unfold push_debug. kp ltac:(intros; match goal with Q : B _ |- _ => exact Q end). }
    specialize (K e4 I4). rewrite H5 in K. exact K. }
  destruct I5 as [I5 I5'].
  refine (_ (iterations_rec cfg _ (fun x : E => converged (w_err (e_w x)) = false)
    (fun x => exists g, residual_at sys (w_u (e_w x)) (w_l (e_w x)) g /\ largest (map Rabs g ++ [Rabs 0]) (er_rmax (w_err (e_w x))))
    Hr _ _ _ _ e5 e' s _ _ Hm I5' I5 H)); auto.
  - intros (rs & t' & T1 & T2 & T3). injection T2 as T4 T5 T6. assert (Rc : recorded e' = recorded e ++ (if failure s then [] else [rs])) by (unfold recorded at 1; rewrite T4; reflexivity).
    destruct (failure s) eqn:Fs'; [rewrite Rc; apply app_nil_r|]. destruct (T3 eq_refl) as ((g & T7 & T8) & T9 & T10 & T11).
    exists rs. split; [exact Rc|]. unfold iter_total at 1. rewrite T6. split; [exact T9|].
    split; [destruct rs; [congruence|simpl in *; lia]|]. exists g. rewrite T11. auto.
  - intros x x' s' Hc Hx. apply nat_iterate_rec in Hx; [|exact Hc]. destruct Hx as (X1 & X2 & X3). split; [exact X1|]. split; [exact X2|].
    intros Fx. destruct (X3 Fx) as (X4 & X5 & X6). splits; auto.
Qed.
End Natural.

(* ------------------------------------------------------------------ *)
(** * Arc-length method *)
Section Arclength.
Context {F A : Type} (fin : R -> bool) (cfg : config) (sys : system A) (lin : linsolver F).
Let E := env (arcst F) A.

Lemma arc_iterate_keeps u l r : keeps (fun x : E => recs x = r) (arc_iterate F A fin cfg sys lin u l).
Proof.
  unfold arc_iterate, call_gg, arc_nn, arc_bordering, arc_augmented, arc_jac, arc_aa, arc_solve, arc_write_matrix, after_solve, is_conv.
  kp ltac:(intros; match goal with Q : recs _ = _ |- _ => exact Q end).
  all: intros z Hz; try (destruct (y_gg sys _ _ _ _) as [? [?|?|]]; exact Hz); try (destruct (y_jac sys _ _ _ _ _) as [? [[? ?]|?|]]; exact Hz); destruct (ls_factorize lin _ _) as [? ?]; exact Hz.
Qed.

(** what the iterations leave unchanged *)
Definition arc_same (th : R) (t : vec) (tl h : R) (e : E) : Prop :=
  w_duds (e_w e) = t /\ w_dlds (e_w e) = tl /\ w_h (e_w e) = h /\ a_theta (e_s e) = th.
Lemma arc_same_keeps th t tl h u l : keeps (arc_same th t tl h) (arc_iterate F A fin cfg sys lin u l).
Proof.
  unfold arc_iterate, arc_nn, arc_bordering, arc_augmented, arc_jac, arc_aa, arc_solve, arc_write_matrix, after_solve, is_conv.
  kp ltac:(intros; match goal with Q : arc_same _ _ _ _ _ |- _ => exact Q end).
  all: intros z Hz; try (destruct (y_jac sys _ _ _ _ _) as [? [[? ?]|?|]]; exact Hz); destruct (ls_factorize lin _ _) as [? ?]; exact Hz.
Qed.

(** the numbers recorded at a state *)
Definition arc_rec th t tl u l h (e : E) : Prop :=
  exists g, residual_at sys (w_u (e_w e)) (w_l (e_w e)) g /\
    largest (map Rabs g ++ [Rabs (constraint (y_ndim sys) th t tl u l h (w_u (e_w e)) (w_l (e_w e)))]) (er_rmax (w_err (e_w e))).

Lemma arc_iterate_rec th t tl h u l (e e' : E) s : (th = 0 \/ th = 1)%R -> arc_same th t tl h e ->
  converged (w_err (e_w e)) = false -> arc_iterate F A fin cfg sys lin u l e = (e', Ok s) ->
  recs e' = recs e /\ (failure s = true -> converged (w_err (e_w e')) = false) /\
  (failure s = false -> w_n_iteration (e_w e') = w_n_iteration (e_w e) /\
     (converged (w_err (e_w e')) = true -> arc_rec th t tl u l h e') /\
     (converged (w_err (e_w e')) = false -> w_n_iteration (e_w e) <> c_n_iteration_max cfg - 1)).
Proof.
  intros Hth (Hdu & Hdl & Hh & Ht) Hc H. pose proof (arc_iterate_keeps u l (recs e) e eq_refl) as K. rewrite H in K. split; [exact K|]. clear K.
  unfold arc_iterate in H. apply mbind_ok in H. destruct H as (e1 & [] & H1 & H).
  apply call_gg_ok in H1. destruct H1 as (g & s1 & a1 & G1 & W1 & S1).
  apply mbind_ok in H. destruct H as (e2 & nn & H2 & H). apply arc_nn_ok in H2; [|unfold arc_inv; rewrite S1, Ht; exact Hth].
  destruct H2 as [-> Hnn]. rewrite S1, W1 in Hnn. simpl in Hnn. rewrite Ht, Hdu, Hdl, Hh in Hnn.
  apply mbind_ok in H. destruct H as (e2 & bad & H2 & H). unfold an_residual in H2.
  destruct (analyze_residual _ _ _ _ _ _) as [er b] eqn:Er. injection H2 as <- <-.
  rewrite W1 in Er. simpl in Er. apply residual_rmax in Er. destruct Er as (R1 & R2 & R3).
  destruct b. { apply ret_inv in H. destruct H as [-> ->]. simpl. split; [|discriminate]. intros _. unfold converged in *. rewrite R2, R3; auto. }
  unfold is_conv in H at 1. apply mbind_ok in H. destruct H as (e3 & c & H3 & H).
  apply mbind_ok in H3. destruct H3 as (x3 & w3 & H3 & H3'). apply getw_inv in H3. destruct H3 as [-> ->].
  apply ret_inv in H3'. destruct H3' as [-> ->]. simpl in H.
  assert (RA : residual_at sys (w_u (e_w e)) (w_l (e_w e)) g) by (do 3 eexists; exact G1).
  assert (L : largest (map Rabs g ++ [Rabs (constraint (y_ndim sys) th t tl u l h (w_u (e_w e)) (w_l (e_w e)))]) (er_rmax er)) by (rewrite R1, Hnn; apply vmax_largest).
  destruct (converged er) eqn:Ec.
  { apply ret_inv in H. destruct H as [-> ->]. unfold arc_rec. simpl. rewrite W1. simpl. split; [discriminate|]. intros _. split; [reflexivity|]. split; [|congruence]. eauto. }
  apply mbind_ok in H. destruct H as (e4 & xo & H4 & H).
  set (e3 := set_e_w (set_w_err er (e_w e1)) e1) in *.
  assert (Q : eqw (e_w e3) (e_w e4)).
  { destruct (c_bordering cfg) eqn:Hb; [apply arc_bordering_ok in H4 | apply arc_augmented_ok in H4]; auto; apply H4. }
  destruct Q as [s4 W4]. unfold e3 in W4. simpl in W4. rewrite W1 in W4. simpl in W4.
  destruct xo as [x|]. 2: { apply ret_inv in H. destruct H as [-> ->]. rewrite W4. simpl. split; [auto|discriminate]. }
  apply after_solve_all in H.
  - rewrite W4 in H. simpl in H. destruct H as (Q1 & Q2 & Q3 & Q4). split; [exact Q2|]. intros Fs. split; [exact Q1|]. split; [|exact (Q4 Fs)].
    intros C. destruct (Q3 Fs C) as (er' & Q5 & Q6 & _). unfold arc_rec. rewrite Q5. simpl. exists g. rewrite Q6. auto.
  - intros x1 x2 y U2. apply mbind_ok in U2. destruct U2 as (x3 & w & Q & U2). apply getw_inv in Q. destruct Q as [-> ->].
    apply mbind_ok in U2. destruct U2 as (x3 & v & Q & U2). apply lift_inv in Q. destruct Q as [-> _].
    apply mbind_ok in U2. destruct U2 as (x3 & xn & Q & U2). apply lift_inv in Q. destruct Q as [-> _]. apply modw_inv in U2. subst x2. auto.
  - rewrite W4. simpl. exact Ec.
Qed.

Theorem C94_recorded_arclength u l st (e e' : E) s :
  c_record_residuals cfg = true -> 1 <= c_n_iteration_max cfg -> a_theta (e_s e) = 0%R \/ a_theta (e_s e) = 1%R ->
  arc_step F A fin cfg sys lin u l st e = (e', Ok s) ->
  if failure s then recorded e' = recorded e
  else exists rs, recorded e' = recorded e ++ [rs] /\ iter_total e' = iter_total e + length rs /\ 1 <= length rs <= c_n_iteration_max cfg /\
    exists theta h g, (theta = 0 \/ theta = 1)%R /\ residual_at sys (w_u (e_w e')) (w_l (e_w e')) g /\
      largest (map Rabs g ++ [Rabs (constraint (y_ndim sys) theta (w_duds (e_w e)) (w_dlds (e_w e)) u l h (w_u (e_w e')) (w_l (e_w e')))]) (last rs 0%R).
Proof.
  intros Hr Hm Hth0 H. unfold arc_step in H. apply mbind_ok in H. destruct H as (e1 & [] & H1 & H).
  pose proof H1 as H0. apply step_begin_ok in H0. destruct H0 as (er & s1 & _ & W1 & S1).
  apply step_begin_rec in H1; [|exact Hr].
  set (B := fun x : E => (recs x = (Some (recorded e), [], iter_total e) /\ converged (w_err (e_w x)) = false /\
               w_duds (e_w x) = w_duds (e_w e) /\ w_dlds (e_w x) = w_dlds (e_w e)) /\ (a_theta (e_s x) = 0 \/ a_theta (e_s x) = 1)%R).
  assert (I1 : B e1). { split; [|rewrite S1; exact Hth0]. destruct H1 as [Z1 Z2]. rewrite W1 in *. auto. }
  apply mbind_ok in H. destruct H as (e2 & [] & H2 & H).
  assert (I2 : B e2).
  { assert (K : keeps B (arc_lambda F A l st)).
    { unfold arc_lambda. kp ltac:(intros; match goal with Q : B _ |- _ => first [exact Q | destruct Q as [Q _]; split; [exact Q | left; reflexivity]] end). }
    specialize (K e1 I1). rewrite H2 in K. exact K. }
  apply mbind_ok in H. destruct H as (e3 & [] & H3 & H).
  assert (I3 : B e3).
  { assert (K : keeps B (arc_predict F A u l st)).
    { unfold arc_predict. kp ltac:(intros; match goal with Q : B _ |- _ => exact Q end). }
    specialize (K e2 I2). rewrite H3 in K. exact K. }
  apply mbind_ok in H. destruct H as (e4 & s4 & H4 & H). apply call_update_w in H4. destruct H4 as [W4 S4].
  assert (I4 : B e4) by (unfold B, recs; rewrite W4, S4; exact I3).
  destruct (failure s4) eqn:Fs.
  { apply ret_inv in H. destruct H as [-> ->]. rewrite Fs. unfold recorded at 1. destruct I4 as [[I4 _] _]. injection I4 as -> _ _. reflexivity. }
  apply mbind_ok in H. destruct H as (e5 & [] & H5 & H).
  assert (I5 : B e5).
  { assert (K : keeps B (push_debug cfg)).
    { unfold push_debug. kp ltac:(intros; match goal with Q : B _ |- _ => exact Q end). }
    specialize (K e4 I4). rewrite H5 in K. exact K. }
  apply mbind_ok in H. destruct H as (e6 & [] & H6 & H). injection H6 as <-.
  set (e6 := set_e_s _ e5) in H. assert (I6 : B e6) by exact I5.
  apply mbind_ok in H. destruct H as (e7 & r & H7 & H). apply mbind_ok in H. destruct H as (e8 & [] & H8 & H).
  apply ret_inv in H. destruct H as [-> ->].
  destruct I6 as ((J1 & J2 & J3 & J4) & J5).
  assert (U : w_u (e_w e8) = w_u (e_w e7) /\ w_l (e_w e8) = w_l (e_w e7) /\ recs e8 = recs e7).
  { destruct (success r); [|apply ret_inv in H8; destruct H8 as [-> _]; auto].
    assert (K : keeps (fun x : E => w_u (e_w x) = w_u (e_w e7) /\ w_l (e_w x) = w_l (e_w e7) /\ recs x = recs e7) (arc_update_tangent F A cfg sys lin)).
    { unfold arc_update_tangent, arc_jac, arc_aa, arc_solve, arc_write_matrix.
      kp ltac:(intros; match goal with Q : w_u _ = _ /\ _ |- _ => exact Q end);
      intros z Hz; try (destruct (y_jac sys _ _ _ _ _) as [? [[? ?]|?|]]; exact Hz); destruct (ls_factorize lin _ _) as [? ?]; exact Hz. }
    specialize (K e7 (conj eq_refl (conj eq_refl eq_refl))). rewrite H8 in K. exact K. }
  destruct U as (U1 & U2 & U3).
  refine (_ (iterations_rec cfg _ (fun x : E => converged (w_err (e_w x)) = false /\ arc_same (a_theta (e_s e6)) (w_duds (e_w e)) (w_dlds (e_w e)) (w_h (e_w e6)) x)
    (arc_rec (a_theta (e_s e6)) (w_duds (e_w e)) (w_dlds (e_w e)) u l (w_h (e_w e6)))
    Hr _ _ _ _ e6 e7 r _ _ Hm _ J1 H7)); auto.
  - intros (rs & t' & T1 & T2 & T3). rewrite <- U3 in T2. injection T2 as T4 T5 T6. assert (Rc : recorded e8 = recorded e ++ (if failure r then [] else [rs])) by (unfold recorded at 1; rewrite T4; reflexivity).
    destruct (failure r) eqn:Fs'; [rewrite Rc; apply app_nil_r|]. destruct (T3 eq_refl) as ((g & T7 & T8) & T9 & T10 & T11).
    exists rs. split; [exact Rc|]. unfold iter_total at 1. rewrite T6. split; [exact T9|].
    split; [destruct rs; [congruence|simpl in *; lia]|]. exists (a_theta (e_s e6)), (w_h (e_w e6)), g. rewrite U1, U2, T11. auto.
  - intros x x' s' [Hc Hs] Hx. pose proof (arc_same_keeps _ _ _ _ u l x Hs) as K. rewrite Hx in K.
    apply (arc_iterate_rec _ _ _ _ _ _ _ _ _ J5 Hs Hc) in Hx. destruct Hx as (X1 & X2 & X3). split; [exact X1|]. split; [exact X2|].
    intros Fx. destruct (X3 Fx) as (X4 & X5 & X6). splits; auto.
  - split; [exact J2|]. unfold arc_same. auto.
Qed.
End Arclength.

Print Assumptions C94_recorded_natural.
Print Assumptions C94_recorded_arclength.
