(** C67: stop criteria; C76: stepsize control. *)
From Verif Require Import Nonlin_Drv_Thm.
Local Open Scope nat_scope.

(* ------------------------------------------------------------------ *)
(** * Specification *)

(** a criterion that makes sense for the state (u, l) and, except for the norm, is not met there *)
Definition stop_valid (st : stop) (u : vec) (l : R) : Prop :=
  match st with
  | MinCompU i u1 => i < length u /\ (u1 < nth i u 0)%R
  | MaxCompU i u1 => i < length u /\ (nth i u 0 < u1)%R
  | MaxNormU n1 _ b e => b < e <= length u /\ (0 < n1)%R
  | MinLambda l1 => (l1 < l)%R
  | MaxLambda l1 => (l < l1)%R
  | Steps n => 1 <= n
  end.

(** the norms of russell_lab on a list *)
Definition norm_of (k : norm) (v : vec) : R :=
  match k with
  | NEuc | NFro => sqrt (fold_right (fun x a => x * x + a)%R 0%R v)
  | NInf | NMax => fold_right (fun x a => Rmax (Rabs x) a) 0%R v
  | NOne => fold_right (fun x a => Rabs x + a)%R 0%R v
  end.

(** the criterion holds at the state (u, l), reached at attempt number k (from 1), with slack 1e-10 *)
Definition stop_met (st : stop) (k : nat) (u : vec) (l : R) : Prop :=
  match st with
  | MinCompU i u1 => (nth i u 0 < u1 + H_MIN)%R
  | MaxCompU i u1 => (u1 - H_MIN < nth i u 0)%R
  | MaxNormU n1 nk b e => (n1 - H_MIN < norm_of nk (firstn (e - b) (skipn b u)))%R
  | MinLambda l1 => (l < l1 + H_MIN)%R
  | MaxLambda l1 => (l1 - H_MIN < l)%R
  | Steps n => k = n
  end.

(* ------------------------------------------------------------------ *)
(** * Stop *)

Lemma H_MIN_pos : (0 < H_MIN)%R.
Proof. rewrite H_MIN_val. lra. Qed.

Lemma below_iff a b : Rltb a b || Rltb (Rabs (a - b)) H_MIN = true <-> (a < b + H_MIN)%R.
Proof.
  pose proof H_MIN_pos. rewrite orb_true_iff, !Rltb_true. unfold Rabs. destruct (Rcase_abs (a - b)); split; intros; lra.
Qed.
Lemma above_iff a b : Rltb b a || Rltb (Rabs (a - b)) H_MIN = true <-> (b - H_MIN < a)%R.
Proof.
  pose proof H_MIN_pos. rewrite orb_true_iff, !Rltb_true. unfold Rabs. destruct (Rcase_abs (a - b)); split; intros; lra.
Qed.

Lemma vmax_spec v : vmax v = fold_right (fun x a => Rmax (Rabs x) a) 0%R v.
Proof. induction v as [|x v IH]; simpl; [reflexivity|]. rewrite <- IH. reflexivity. Qed.
Lemma inner_spec v : inner v v = fold_right (fun x a => x * x + a)%R 0%R v.
Proof. induction v as [|x v IH]; simpl; [reflexivity|]. rewrite IH. reflexivity. Qed.

Lemma vnorm_chunk_spec u k b e : b < e <= length u ->
  vnorm_chunk u k b e = Ok (norm_of k (firstn (e - b) (skipn b u))).
Proof.
  intros H. unfold vnorm_chunk. replace (length u =? 0) with false by (symmetry; apply Nat.eqb_neq; lia).
  unfold assert_. replace (b <? e) with true by (symmetry; apply Nat.ltb_lt; lia).
  replace (e <=? length u) with true by (symmetry; apply Nat.leb_le; lia). simpl. f_equal.
  destruct k; simpl; unfold vnorm2; rewrite ?inner_spec, ?vmax_spec; reflexivity.
Qed.

(** `validate` accepts exactly these, and reports an error otherwise *)
Theorem C67_validate st u l :
  (stop_validate st u l = Ok tt <-> stop_valid st u l) /\ stop_validate st u l <> Panic.
Proof.
  destruct st as [i u1|i u1|n1 k b e|l1|l1|n]; simpl.
  - destruct (Nat.leb_spec (length u) i); [split; [split; [discriminate | lia] | discriminate]|].
    rewrite (vget_ok u i 0%R) by lia. simpl. destruct (Rleb_spec (nth i u 0%R) u1).
    + split; [split; [discriminate | lra] | discriminate].
    + split; [split; auto | discriminate].
  - destruct (Nat.leb_spec (length u) i); [split; [split; [discriminate | lia] | discriminate]|].
    rewrite (vget_ok u i 0%R) by lia. simpl. destruct (Rleb_spec u1 (nth i u 0%R)).
    + split; [split; [discriminate | lra] | discriminate].
    + split; [split; auto | discriminate].
  - destruct (Nat.leb_spec e b); [split; [split; [discriminate | lia] | discriminate]|].
    destruct (Nat.ltb_spec (length u) e); [split; [split; [discriminate | lia] | discriminate]|].
    destruct (Rleb_spec n1 0%R); [split; [split; [discriminate | lra] | discriminate]|].
    split; [split; auto | discriminate].
  - destruct (Rleb_spec l l1); (split; [split; [try discriminate | try lra] | discriminate]); auto.
  - destruct (Rleb_spec l1 l); (split; [split; [try discriminate | try lra] | discriminate]); auto.
  - destruct (Nat.ltb_spec n 1); (split; [split; [try discriminate | try lia] | discriminate]); auto.
Qed.

(** `now` decides the criterion, for every criterion that was accepted and every later state *)
Theorem C67_now st u0 l0 u l i :
  stop_valid st u0 l0 -> length u = length u0 ->
  exists b, stop_now st i u l = Ok b /\ (b = true <-> stop_met st (i + 1) u l).
Proof.
  intros V E. destruct st as [j u1|j u1|n1 k b e|l1|l1|n]; simpl in *.
  - rewrite (vget_ok u j 0%R) by lia. eexists. split; [reflexivity|]. apply below_iff.
  - rewrite (vget_ok u j 0%R) by lia. eexists. split; [reflexivity|].
    rewrite (Rabs_minus_sym u1). apply above_iff.
  - rewrite vnorm_chunk_spec by lia. eexists. split; [reflexivity|]. apply above_iff.
  - eexists. split; [reflexivity|]. rewrite (Rabs_minus_sym l1). apply below_iff.
  - eexists. split; [reflexivity|]. apply above_iff.
  - eexists. split; [reflexivity|]. apply Nat.eqb_eq.
Qed.

Example C67_now_example : stop_valid (MaxNormU 2 NOne 0 2) [1; 0]%R 0 /\ stop_met (MaxNormU 2 NOne 0 2) 1 [1; -1]%R 0.
Proof.
  split; simpl; [split; [lia | lra]|]. replace (Rabs (-1)) with 1%R by (unfold Rabs; destruct (Rcase_abs (-1)); lra). rewrite Rabs_R1, H_MIN_val. lra.
Qed.

(** FINDING: a norm criterion is accepted although it is already met, and so is a component within 1e-10 *)
Theorem C67_validate_unmet_refuted :
  ~ (forall st u l, stop_validate st u l = Ok tt -> stop_now st 0 u l = Ok false \/ exists n, st = Steps n).
Proof.
  intros H. destruct (H (MaxNormU 1 NOne 0 1) [5%R] 0%R) as [Q | [n Q]]; [| |discriminate Q].
  - apply C67_validate. simpl. split; [lia | lra].
  - destruct (C67_now (MaxNormU 1 NOne 0 1) [5%R] 0%R [5%R] 0%R 0) as (b & E & B); [simpl; split; [lia | lra] | reflexivity|].
    rewrite Q in E. injection E as <-. destruct B as [_ B]. discriminate B. simpl.
    rewrite Rabs_pos_eq by lra. rewrite H_MIN_val. lra.
Qed.

(** the first stepsize: larger than 1e-10, not larger than what the user asked for, and never past a
    lambda target *)
Theorem C67_initial ddl st l0 v :
  ddl_initial ddl st l0 = Ok v ->
  (H_MIN < v <= dl_ini ddl)%R /\
  match st with MinLambda l1 | MaxLambda l1 => (v <= Rabs (l1 - l0))%R | _ => v = dl_ini ddl end.
Proof.
  unfold ddl_initial. cbv zeta. match goal with |- (if Rleb ?x H_MIN then _ else _) = _ -> _ => destruct (Rleb_spec x H_MIN) as [Q|Q] end; intros H; [discriminate|]. injection H as <-.
  destruct st; try (split; [lra | reflexivity]).
  - rewrite (Rabs_minus_sym l1). pose proof (Rmin_l (dl_ini ddl) (Rabs (l0 - l1))). pose proof (Rmin_r (dl_ini ddl) (Rabs (l0 - l1))).
    repeat split; lra.
  - pose proof (Rmin_l (dl_ini ddl) (Rabs (l1 - l0))). pose proof (Rmin_r (dl_ini ddl) (Rabs (l1 - l0))). repeat split; lra.
Qed.
Example C67_initial_example : ddl_initial (ddl_auto 0.5) (MaxLambda 0.2) 0 = Ok (Rabs (0.2 - 0)).
Proof.
  unfold ddl_initial, ddl_auto. simpl. rewrite Rmin_right by (rewrite Rabs_pos_eq; lra).
  rewrite (proj2 (Rleb_false _ _)); [reflexivity|]. rewrite Rabs_pos_eq, H_MIN_val; lra.
Qed.

(* ------------------------------------------------------------------ *)
(** * Steps(n) *)

Lemma path_le {S A} (ops : solver_ops S A) Inv st u0 l0 n k u l : path ops Inv st u0 l0 n k u l -> n <= k.
Proof. induction 1; lia. Qed.
Lemma path_steps {S A} (ops : solver_ops S A) Inv N u0 l0 n k u l : 1 <= N ->
  path ops Inv (Steps N) u0 l0 n k u l -> k = n -> n <= N.
Proof.
  intros HN. induction 1 as [|n k k' u l u' l' H IH Hc Hk Hs]; intros E; [lia|].
  pose proof (path_le _ _ _ _ _ _ _ _ _ H). assert (k = n) by lia. specialize (IH H1). subst k.
  destruct Hc as [-> | Hc]; [lia|]. simpl in Hc. injection Hc as Hc. apply Nat.eqb_neq in Hc. lia.
Qed.

(** With prescribed steps, Steps(n) ends a successful run after exactly n accepted steps (unless the
    budget is smaller or the callback stops it). *)
Theorem C67_steps {S A} fin cfg (ops : solver_ops S A) Inv ndim dir n ddl d d' :
  ops_ok ops dir Inv -> dl_auto ddl = false -> 1 <= n ->
  solve S A fin cfg ops ndim dir (Steps n) ddl d = (d', Ok Success) -> cb_of d' = None ->
  n_accepted d' = Nat.min n (budget cfg ddl).
Proof.
  intros OK Ea Hn H Hcb.
  destruct (C66_counts fin cfg ops Inv _ _ _ _ _ _ _ OK H) as ((k & P & _ & Pk) & B & _ & Rj).
  destruct (C66_success fin cfg ops Inv _ _ _ _ _ _ OK H) as (C & D).
  specialize (Pk Ea). specialize (Rj Ea). pose proof (path_steps _ _ _ _ _ _ _ _ _ Hn P Pk).
  destruct D as [(cb & s & h & a & a' & U & _) | [[D1 D2] | D]].
  - congruence.
  - simpl in D2. injection D2 as D2. apply Nat.eqb_eq in D2. lia.
  - lia.
Qed.

(** FINDING: with automatic steps the criterion compares the number of attempts, and only at accepted
    steps, so one rejection makes the run miss Steps(n) and go on to the step budget. *)
Definition ex_upd_once (_ : bool) (_ _ : vec) (_ _ : R) (a : nat) : nat * res bool :=
  (a + 1, if a =? 0 then Err "no" else Ok false).
Theorem C67_steps_auto_refuted :
  exists d', ex_run (ex_cfg 3 10 false) (Some ex_upd_once) true (Steps 1) (ddl_auto 0.5) = (d', Ok Success) /\
             cb_of d' = None /\ n_accepted d' = 2.
Proof. eexists. split. { rrun. } split; reflexivity. Qed.

(* ------------------------------------------------------------------ *)
(** * A lambda target is never passed by the natural method *)

Lemma nat_step_target {F A} fin cfg (sys : system A) (lin : linsolver F) dir st u l u' l' l1 b :
  stop_lambda st = Some (l1, b) ->
  acc_step (natural_ops F A fin cfg sys lin) (nat_inv dir) st u l u' l' ->
  if b then (l1 <= l')%R else (l' <= l1)%R.
Proof.
  intros Hst (e & e' & Inv & H & _ & ->). simpl in H. unfold nat_step in H.
  apply mbind_ok in H. destruct H as (e1 & [] & Em & H).
  assert (I1 : nat_inv dir (e_s e1)).
  { assert (K : keeps (fun e => nat_inv dir (e_s e)) (step_begin cfg sys (S := natst F) u l)).
    { unfold step_begin. kp ltac:(intros; match goal with Q : nat_inv _ _ |- _ => exact Q end). }
    specialize (K e Inv). rewrite Em in K. exact K. }
  apply mbind_ok in H. destruct H as (e0 & [] & Em0 & H). cbv beta in H.
  assert (T : if b then (l1 <= w_l (e_w e0))%R else (w_l (e_w e0) <= l1)%R).
  { unfold nat_lambda in Em0. rewrite Hst in Em0.
    unfold mbind, gets, modw, getw, modify, ret in Em0. simpl in Em0.
    assert (Q : forall x, (l + n_sign0 (e_s e1) * ((x - l) * n_sign0 (e_s e1)) = x)%R).
    { intros y. unfold nat_inv in I1. rewrite I1. destruct dir; ring. }
    destruct (Rleb_spec (l + n_sign0 (e_s e1) * w_h (e_w e1)) l1) as [L1|L1];
    destruct (Rleb_spec l1 (l + n_sign0 (e_s e1) * w_h (e_w e1))) as [L2|L2]; destruct b; simpl in Em0;
      injection Em0 as <-; simpl; try (rewrite Q); lra. }
  match type of H with ?m e0 = _ =>
    assert (K : keeps (fun e => w_l (e_w e) = w_l (e_w e0)) m) end.
  { unfold nat_predict, nat_jac, nat_solve, write_matrix, push_debug, iterations, nat_iterate,
    after_solve, is_conv, nat_jac, nat_solve, write_matrix.
    kp ltac:(intros; match goal with Q : w_l _ = _ |- _ => exact Q end);
    intros e2 He; try (destruct (y_jac sys _ _ _ _ _) as [a [[m g]|m|]]; exact He);
    destruct (ls_factorize lin _ _) as [f r]; exact He. }
  specialize (K e0 eq_refl). rewrite H in K. simpl in K. rewrite K. exact T.
Qed.

(** whatever the outcome, lambda stays on the near side of an accepted target *)
Theorem C67_target {F A} fin cfg (sys : system A) (lin : linsolver F) ndim dir st ddl d d' r :
  stop_valid st (d_u d) (d_l d) ->
  solve _ _ fin cfg (natural_ops F A fin cfg sys lin) ndim dir st ddl d = (d', r) ->
  match st with MinLambda l1 => (l1 <= d_l d')%R | MaxLambda l1 => (d_l d' <= l1)%R | _ => True end.
Proof.
  intros V H. destruct (C66_path _ _ _ _ _ _ _ _ _ _ _ (natural_ok fin cfg sys lin dir) H) as (n & k & P).
  destruct st as [| | |l1|l1|]; auto; simpl in V; inversion P as [|? ? ? ? ? ? ? _ _ _ Q]; subst; try lra.
  - exact (nat_step_target fin cfg sys lin dir (MinLambda l1) _ _ _ _ l1 true eq_refl Q).
  - exact (nat_step_target fin cfg sys lin dir (MaxLambda l1) _ _ _ _ l1 false eq_refl Q).
Qed.

(** ... and a run that is ended by the criterion is within 1e-10 of the target *)
Theorem C67_target_reached {F A} fin cfg (sys : system A) (lin : linsolver F) ndim dir l1 st ddl d d' :
  st = MinLambda l1 \/ st = MaxLambda l1 ->
  solve _ _ fin cfg (natural_ops F A fin cfg sys lin) ndim dir st ddl d = (d', Ok Success) ->
  cb_of d' = None -> n_steps d' < budget cfg ddl -> (Rabs (d_l d' - l1) < H_MIN)%R.
Proof.
  intros St H Hc Hb.
  assert (V : stop_valid st (d_u d) (d_l d)).
  { unfold solve in H. apply mbind_ok in H. destruct H as (d1 & x & G & H). apply get_inv in G. destruct G as [-> ->].
    destruct (negb _); [discriminate H|]. apply mbind_ok in H. destruct H as (d2 & [] & G & _).
    apply lift_inv in G. destruct G as [_ G]. apply C67_validate, G. }
  pose proof (C67_target _ _ _ _ _ _ _ _ _ _ _ V H) as T.
  destruct (C66_success fin cfg _ _ _ _ _ _ _ _ (natural_ok fin cfg sys lin dir) H) as (C & D).
  destruct D as [(cb & s & h & a & a' & U & _) | [[D1 D2] | D]]; [congruence | | lia].
  destruct St as [-> | ->].
  - destruct (C67_now (MinLambda l1) (d_u d) (d_l d) (d_u d) (d_l d') (n_steps d' - 1) V eq_refl) as (b & E & B).
    simpl in E, D2. rewrite D2 in E. injection E as <-. apply proj1 in B. specialize (B eq_refl). simpl in B.
    unfold Rabs; destruct (Rcase_abs _); lra.
  - destruct (C67_now (MaxLambda l1) (d_u d) (d_l d) (d_u d) (d_l d') (n_steps d' - 1) V eq_refl) as (b & E & B).
    simpl in E, D2. rewrite D2 in E. injection E as <-. apply proj1 in B. specialize (B eq_refl). simpl in B.
    unfold Rabs; destruct (Rcase_abs _); lra.
Qed.

Example C67_target_example :
  exists d', ex_run (ex_cfg 5 10 false) None true (MaxLambda 0.75) (ddl_constant 0.5) = (d', Ok Success) /\
             cb_of d' = None /\ n_steps d' = 2 /\ d_l d' = 0.75%R.
Proof. eexists. split. { rrun. } repeat split. simpl. lra. Qed.

(* ------------------------------------------------------------------ *)
(** * Stepsize control *)

Lemma powf_nonneg x y : (0 <= powf x y)%R.
Proof.
  unfold powf. destruct (Reqb x 0); [destruct (Reqb y 0); [lra | destruct (Rltb 0 y); lra]|].
  unfold Rpower. left. apply exp_pos.
Qed.
Lemma ksi_nonneg cfg w : (0 <= ctl_ksi cfg w)%R.
Proof. unfold ctl_ksi. destruct (c_nr_control cfg); [apply powf_nonneg | lra]. Qed.
Lemma rho_nonneg {S A} cfg (d : drv S A) x : (0 <= c_tg_rho_tiny cfg -> 0 <= ctl_rho S A cfg d x)%R.
Proof.
  intros H. unfold ctl_rho. cbv zeta. destruct (c_tg_control cfg); [|lra]. destruct (Reqb x 0); [exact H|].
  destruct (c_tg_pid cfg); [repeat apply Rmult_le_pos; apply powf_nonneg|].
  destruct (1 <? _); destruct (2 <? _); repeat apply Rmult_le_pos; apply powf_nonneg.
Qed.
Lemma atan_m1 : atan (-1) = (- (PI / 4))%R.
Proof. replace (-1)%R with (-(1))%R by lra. rewrite atan_opp, atan_1. reflexivity. Qed.
Lemma atan_low x : (-1 <= x)%R -> (- (PI / 4) <= atan x)%R.
Proof.
  intros H. rewrite <- atan_m1. destruct (Req_dec x (-1)) as [->|N]; [lra|]. left. apply atan_increasing. lra.
Qed.
Lemma PI_4_lt_1 : (PI / 4 < 1)%R.
Proof.
  destruct (PI_ineq 1) as [_ H]. unfold tg_alt, PI_tg in H. simpl in H. lra.
Qed.

(** the estimated stepsize: a bounded factor times the current one *)
Theorem C76_ratio {S A} cfg rdiff (d d' : drv S A) h :
  (0 <= c_tg_rho_tiny cfg)%R -> (0 < w_h (dwork d))%R ->
  adapt_stepsize S A cfg rdiff d = (d', Ok h) ->
  ((1 - PI / 4) * w_h (dwork d) <= h < (1 + PI / 2) * w_h (dwork d))%R /\ (0 < h)%R.
Proof.
  intros Ht Hh H. unfold adapt_stepsize in H. msimp. fold (dwork d) in *.
  set (kr := (ctl_ksi cfg (dwork d) * ctl_rho S A cfg d _)%R).
  assert (K : (0 <= kr)%R) by (apply Rmult_le_pos; [apply ksi_nonneg | apply rho_nonneg, Ht]).
  pose proof (atan_low (kr - 1)). pose proof (atan_bound (kr - 1)). pose proof PI_4_lt_1.
  assert ((1 - PI / 4) * w_h (dwork d) <= w_h (dwork d) * (1 + atan (kr - 1)))%R.
  { rewrite (Rmult_comm (w_h _)). apply Rmult_le_compat_r; lra. }
  repeat split; [assumption | |].
  - rewrite (Rmult_comm (w_h _)). apply Rmult_lt_compat_r; lra.
  - eapply Rlt_le_trans; [|eassumption]. apply Rmult_lt_0_compat; lra.
Qed.

(** nothing to correct: the stepsize stays *)
Theorem C76_no_control {S A} cfg rdiff (d d' : drv S A) h :
  c_nr_control cfg = false -> c_tg_control cfg = false ->
  adapt_stepsize S A cfg rdiff d = (d', Ok h) -> h = w_h (dwork d).
Proof.
  intros C1 C2 H. unfold adapt_stepsize in H. msimp. unfold ctl_ksi, ctl_rho. rewrite C1, C2.
  replace (1 * 1 - 1)%R with 0%R by ring. rewrite atan_0. unfold dwork. ring.
Qed.

(** iteration control alone: the stepsize does not shrink while the step took at most the optimal
    number of iterations, and shrinks if it took more *)
Theorem C76_iterations {S A} cfg rdiff (d d' : drv S A) h :
  c_nr_control cfg = true -> c_tg_control cfg = false -> (0 < c_nr_beta cfg)%R -> 1 <= c_nr_n_opt cfg ->
  (0 < w_h (dwork d))%R -> adapt_stepsize S A cfg rdiff d = (d', Ok h) ->
  ((h < w_h (dwork d))%R <-> c_nr_n_opt cfg < w_n_iteration (dwork d)) /\
  (h = w_h (dwork d) <-> c_nr_n_opt cfg = Nat.max 1 (w_n_iteration (dwork d))).
Proof.
  intros C1 C2 Hb Ho Hh H. unfold adapt_stepsize in H. msimp. fold (dwork d) in *.
  unfold ctl_ksi, ctl_rho. rewrite C1, C2. set (n := w_n_iteration (dwork d)) in *. set (o := c_nr_n_opt cfg) in *.
  assert (M : Rmax 1 (INR n) = INR (Nat.max 1 n)).
  { destruct n as [|m]; [simpl; rewrite Rmax_left; lra|]. rewrite Nat.max_r by lia. apply Rmax_right.
    rewrite S_INR. pose proof (pos_INR m). lra. }
  rewrite M. set (m := Nat.max 1 n). assert (Hm : 1 <= m) by lia.
  assert (Pm : (0 < INR m)%R) by (apply lt_0_INR; lia). assert (Po : (0 < INR o)%R) by (apply lt_0_INR; lia).
  set (q := (INR o / INR m)%R). assert (Pq : (0 < q)%R) by (apply Rdiv_lt_0_compat; lra).
  assert (E : powf q (c_nr_beta cfg) = Rpower q (c_nr_beta cfg)).
  { unfold powf. destruct (Reqb_spec q 0); [lra | reflexivity]. }
  rewrite E. set (k := Rpower q (c_nr_beta cfg)). replace (k * 1 - 1)%R with (k - 1)%R by ring.
  assert (L1 : o < m -> (atan (k - 1) < 0)%R).
  { intros L. rewrite <- atan_0. apply atan_increasing. unfold k, Rpower.
    assert (ln q < 0)%R.
    { rewrite <- ln_1. apply ln_increasing; [exact Pq|]. apply lt_INR in L. unfold q.
      apply Rmult_lt_reg_r with (INR m); [exact Pm|]. unfold Rdiv. rewrite Rmult_assoc, Rinv_l, Rmult_1_r, Rmult_1_l by lra. exact L. }
    assert (c_nr_beta cfg * ln q < 0)%R by (rewrite <- (Rmult_0_r (c_nr_beta cfg)); apply Rmult_lt_compat_l; assumption).
    apply exp_increasing in H0. rewrite exp_0 in H0. lra. }
  assert (L2 : o = m -> atan (k - 1) = 0%R).
  { intros L. unfold k, q. rewrite L. unfold Rdiv. rewrite Rinv_r by lra. unfold Rpower. rewrite ln_1, Rmult_0_r, exp_0.
    replace (1 - 1)%R with 0%R by ring. apply atan_0. }
  assert (L3 : m < o -> (0 < atan (k - 1))%R).
  { intros L. rewrite <- atan_0. apply atan_increasing. unfold k, Rpower.
    assert (0 < ln q)%R.
    { rewrite <- ln_1. apply ln_increasing; [lra|]. apply lt_INR in L. unfold q.
      apply Rmult_lt_reg_r with (INR m); [exact Pm|]. unfold Rdiv. rewrite Rmult_assoc, Rinv_l, Rmult_1_r, Rmult_1_l by lra. exact L. }
    assert (0 < c_nr_beta cfg * ln q)%R by (apply Rmult_lt_0_compat; assumption).
    apply exp_increasing in H0. rewrite exp_0 in H0. lra. }
  assert (T : o < m \/ o = m \/ m < o) by lia.
  assert (X : (w_h (dwork d) * (1 + atan (k - 1)) = w_h (dwork d) + w_h (dwork d) * atan (k - 1))%R) by ring.
  rewrite X. destruct T as [T | [T | T]].
  - specialize (L1 T). assert (w_h (dwork d) * atan (k - 1) < 0)%R.
    { rewrite <- (Rmult_0_r (w_h (dwork d))). apply Rmult_lt_compat_l; assumption. }
    split; split; intros; try lra; lia.
  - specialize (L2 T). rewrite L2, Rmult_0_r. split; split; intros; try lra; lia.
  - specialize (L3 T). assert (0 < w_h (dwork d) * atan (k - 1))%R by (apply Rmult_lt_0_compat; assumption).
    split; split; intros; try lra; lia.
Qed.

(** a rejected step multiplies the stepsize by the failure factor, and nothing else does in that pass *)
Theorem C76_rejected {S A} fin cfg (ops : solver_ops S A) dir Inv st i s (d d' : drv S A) b :
  ops_ok ops dir Inv -> failure s = true ->
  auto_finish S A fin cfg ops st i s d = (d', Ok b) ->
  b = false /\ w_h (dwork d') = (w_h (dwork d) * c_m_failure cfg)%R /\ d_u d' = d_u d /\ d_l d' = d_l d /\
  w_follows_rejection (dwork d') = true.
Proof.
  intros OK F H. unfold auto_finish in H. rewrite F in H. unfold mdst, mdw in H.
  apply mbind_ok in H. destruct H as (d1 & [] & H1 & H). apply mbind_ok in H. destruct H as (d2 & [] & H2 & H).
  apply mbind_ok in H. destruct H as (d3 & x & H3 & H). apply mbind_ok in H. destruct H as (d4 & [] & H4 & H).
  msimp. unfold on_env, modst, modw, modify in *. injection H1 as <-. injection H2 as <-. simpl in H3.
  injection H4 as <-.
  destruct (op_reject ops _) as [e3 r3] eqn:E3 in H3. injection H3 as <- ->.
  pose proof (ok_reject_h _ _ _ OK) as Hh. pose proof (ok_reject _ _ _ OK) as Hf. unfold dwork; simpl.
  match type of E3 with op_reject ops ?x = _ => specialize (Hh x); specialize (Hf x); rewrite E3 in Hh, Hf; simpl in Hh, Hf end.
  splits; auto; [rewrite Hh; reflexivity|]. destruct Hf as (_ & _ & _ & _ & Hf & _). exact Hf.
Qed.

Lemma adapt_env {S A} cfg rdiff (d d' : drv S A) h : adapt_stepsize S A cfg rdiff d = (d', Ok h) -> d_env d' = d_env d.
Proof. intros H. unfold adapt_stepsize in H. msimp. reflexivity. Qed.
Lemma output_w {S A} (d : drv S A) : e_w (d_env (fst (output_step S A d))) = e_w (d_env d).
Proof. unfold output_step. destruct (d_out d); [|reflexivity]. destruct (execute _ _ _ _ _) as [[o' a] r]. reflexivity. Qed.

(** an accepted step changes the stepsize by a bounded factor, does not enlarge it right after a
    failure or a rejection, and clears these two marks *)
Theorem C76_accepted {S A} fin cfg (ops : solver_ops S A) dir Inv st i s (d d' : drv S A) b :
  ops_ok ops dir Inv -> failure s = false -> w_target_reached (dwork d) = false ->
  (0 <= c_tg_rho_tiny cfg)%R -> (0 < w_h (dwork d))%R ->
  auto_finish S A fin cfg ops st i s d = (d', Ok b) ->
  ((1 - PI / 4) * w_h (dwork d) <= w_h (dwork d') < (1 + PI / 2) * w_h (dwork d))%R /\ (0 < w_h (dwork d'))%R /\
  (w_follows_failure (dwork d) || w_follows_rejection (dwork d) = true -> (w_h (dwork d') <= w_h (dwork d))%R) /\
  w_follows_failure (dwork d') = false /\ w_follows_rejection (dwork d') = false /\
  st_h_accepted (w_stats (dwork d')) = w_h (dwork d').
Proof.
  intros OK F TR Ht Hh H. unfold auto_finish in H. rewrite F in H. unfold mdst, mdw in H.
  apply mbind_ok in H. destruct H as (d1 & [] & H1 & H). apply mbind_ok in H. destruct H as (d2 & rdiff & H2 & H).
  unfold on_env, modst, modw, modify in H1. injection H1 as <-.
  unfold do_accept in H2. destruct (op_accept ops _ _ _) as [e2 r2] eqn:E2 in H2.
  pose proof (ok_accept_h _ _ _ OK) as Ah. pose proof (ok_accept_frame _ _ _ OK) as Af.
  match type of E2 with op_accept ops ?u ?l ?x = _ => specialize (Ah u l x); specialize (Af u l x); rewrite E2 in Ah, Af; simpl in Ah, Af end.
  destruct r2 as [[[u2 l2] r2]|m|]; try discriminate H2. injection H2 as <- <-.
  destruct Af as (_ & _ & _ & Ff & Fr & Ft & _).
  apply mbind_ok in H. destruct H as (d3 & d3' & H3 & H). apply get_inv in H3. destruct H3 as [-> ->].
  apply mbind_ok in H. destruct H as (d4 & [] & H4 & H). apply lift_inv in H4. destruct H4 as [-> _].
  apply mbind_ok in H. destruct H as (d5 & w & H5 & H). injection H5 as <- <-. cbn [d_env set_d_env] in H. rewrite Ft in H.
  match type of H with context [w_target_reached ?x] => change (w_target_reached x) with (w_target_reached (dwork d)) in H end.
  rewrite TR in H.
  apply mbind_ok in H. destruct H as (d6 & h & H6 & H). pose proof (adapt_env _ _ _ _ _ H6) as E6.
  apply C76_ratio in H6; [|exact Ht | unfold dwork; cbn [d_env set_d_env]; rewrite Ah; exact Hh].
  unfold dwork in H6; cbn [d_env set_d_env] in H6, E6. rewrite Ah in H6. fold (dwork d) in *.
  apply mbind_ok in H. destruct H as (d7 & w & H7 & H). injection H7 as <- <-. rewrite E6, Ah, Ff, Fr in H.
  match type of H with context [w_follows_failure ?x] => change (w_follows_failure x) with (w_follows_failure (dwork d)) in H end.
  match type of H with context [w_follows_rejection ?x] => change (w_follows_rejection x) with (w_follows_rejection (dwork d)) in H end.
  match type of H with context [Rmin h ?x] => change x with (w_h (dwork d)) in H end.
  set (hn := if _ || _ then Rmin h (w_h (dwork d)) else h) in H.
  assert (HN : ((1 - PI / 4) * w_h (dwork d) <= hn < (1 + PI / 2) * w_h (dwork d))%R /\ (0 < hn)%R /\
               (w_follows_failure (dwork d) || w_follows_rejection (dwork d) = true -> (hn <= w_h (dwork d))%R)).
  { destruct H6 as [[B1 B2] B3]. pose proof PI_4_lt_1. pose proof PI_RGT_0.
    assert (PI / 4 * w_h (dwork d) > 0)%R by (apply Rmult_lt_0_compat; lra).
    unfold hn. destruct (_ || _).
    - unfold Rmin. destruct (Rle_dec h (w_h (dwork d))); repeat split; intros; lra.
    - repeat split; try lra; intros; discriminate. }
  clearbody hn. clear H6.
  do 6 (apply mbind_ok in H; destruct H as (? & [] & ?H & H);
        match goal with Q : on_env _ _ _ _ = _ |- _ => unfold on_env, modst, modw, modify in Q; injection Q as <- end).
  cbn [d_env set_d_env e_w set_e_w] in H.
  apply mbind_ok in H. destruct H as (d9 & b9 & H9 & H).
  match type of H9 with output_step S A ?x = _ => pose proof (output_w x) as W; rewrite H9 in W; simpl in W end.
  assert (d' = d9) as ->.
  { destruct b9; [apply ret_inv in H; apply H|]. apply mbind_ok in H. destruct H as (d10 & d10' & H10 & H).
    apply get_inv in H10. destruct H10 as [-> ->]. apply lift_inv in H. apply H. }
  change (e_w (d_env d9)) with (dwork d9) in W. rewrite W. simpl.
  destruct HN as (N1 & N2 & N3). repeat split; auto; apply N1.
Qed.

(** FINDING: the failure factor has no upper bound, so that a validated configuration may enlarge the
    stepsize at a rejection *)
Theorem C76_failure_factor_refuted :
  exists cfg, config_validate cfg = Ok tt /\ (1 < c_m_failure cfg)%R.
Proof.
  exists (mkCfg Natural false false 2 1 1 1 None 1 1 1 1 false 1 1 1 false false false false false false 0 0 1 1 false 1 0 0 0 0 0).
  split; [|simpl; lra]. unfold config_validate, TOL_MIN. simpl.
  repeat (first [rewrite (proj2 (Rltb_false _ _)) by lra | rewrite (proj2 (Rleb_false _ _)) by lra]). reflexivity.
Qed.
Print Assumptions C67_validate.
Print Assumptions C67_now.
Print Assumptions C67_initial.
Print Assumptions C67_steps.
Print Assumptions C67_target.
Print Assumptions C67_target_reached.
Print Assumptions C67_steps_auto_refuted.
Print Assumptions C67_validate_unmet_refuted.
Print Assumptions C76_ratio.
Print Assumptions C76_no_control.
Print Assumptions C76_iterations.
Print Assumptions C76_rejected.
Print Assumptions C76_accepted.
Print Assumptions C76_failure_factor_refuted.
