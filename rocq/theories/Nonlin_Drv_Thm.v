(** C66: outcome of Solver::solve. *)
From Verif Require Export Nonlin_Lib.
Local Open Scope nat_scope.

(* ------------------------------------------------------------------ *)
(** * Specification *)

(** one accepted step: from (u, l) the method reports success with the state (u', l'); [Inv] is an
    invariant of the state of the method *)
Definition acc_step {S A} (ops : solver_ops S A) (Inv : S -> Prop) (st : stop) (u : vec) (l : R) (u' : vec) (l' : R) : Prop :=
  exists e e', Inv (e_s e) /\ op_step ops u l st e = (e', Ok Success) /\ u' = w_u (e_w e') /\ l' = w_l (e_w e').

(** n accepted steps in a row, the last one at attempt k; the run goes on from an accepted state only
    if the stop criterion was tested there and did not hold *)
Inductive path {S A} (ops : solver_ops S A) (Inv : S -> Prop) (st : stop) (u0 : vec) (l0 : R) : nat -> nat -> vec -> R -> Prop :=
| path_0 : path ops Inv st u0 l0 0 0 u0 l0
| path_S n k k' u l u' l' :
    path ops Inv st u0 l0 n k u l -> n = 0 \/ stop_now st (k - 1) u l = Ok false -> k < k' ->
    acc_step ops Inv st u l u' l' -> path ops Inv st u0 l0 (n + 1) k' u' l'.

(** what the driver relies on: a method leaves the driver's flags alone, `accept` hands over the
    state of the workspace, neither `accept` nor `reject` touches the stepsize, and [Inv] is
    established by `initialize` (in direction [dir]) and kept *)
Record ops_ok {S A} (ops : solver_ops S A) (dir : bool) (Inv : S -> Prop) : Prop := {
  ok_init : forall d u l b, frame (op_initialize ops d u l b);
  ok_step : forall u l st, frame (op_step ops u l st);
  ok_reject : frame (op_reject ops);
  ok_reject_h : forall e, w_h (e_w (fst (op_reject ops e))) = w_h (e_w e);
  ok_accept_frame : forall u l, frame (op_accept ops u l);
  ok_accept_h : forall u l e, w_h (e_w (fst (op_accept ops u l e))) = w_h (e_w e);
  ok_accept : forall u l e e' v l' r, op_accept ops u l e = (e', Ok (v, l', r)) -> v = w_u (e_w e) /\ l' = w_l (e_w e);
  ok_inv_init : forall d u l e e', op_initialize ops d u l dir e = (e', Ok tt) -> Inv (e_s e');
  ok_inv_step : forall u l st, keeps (fun e => Inv (e_s e)) (op_step ops u l st);
  ok_inv_reject : keeps (fun e => Inv (e_s e)) (op_reject ops);
  ok_inv_accept : forall u l, keeps (fun e => Inv (e_s e)) (op_accept ops u l) }.

Definition dwork {S A} (d : drv S A) : work := e_w (d_env d).
Definition n_steps {S A} (d : drv S A) : nat := st_n_steps (w_stats (dwork d)).
Definition n_accepted {S A} (d : drv S A) : nat := st_n_accepted (w_stats (dwork d)).
Definition n_rejected {S A} (d : drv S A) : nat := st_n_rejected (w_stats (dwork d)).

(** the user's callback *)
Definition cb_of {S A} (d : drv S A) : option (callback A) :=
  match d_out d with Some o => o_cb o | None => None end.
(** the callback asked to stop at the state (u, l) *)
Definition user_stop {S A} (d : drv S A) : Prop :=
  exists cb s h a a', cb_of d = Some cb /\ cb s (d_u d) (d_l d) h a = (a', Ok true).

(** number of passes: solver.rs:152-156, 214 *)
Definition budget (cfg : config) (ddl : delta_lambda) : nat :=
  if dl_auto ddl then c_n_step_max cfg
  else match dl_list ddl with [] => c_n_step_max cfg | ds => length ds end.

(* ------------------------------------------------------------------ *)
(** * The interface is met by both methods *)

(** fields that `accept` and `reject` leave alone *)
Lemma reject_h {S A} cfg (sys : system A) (e : env S A) : w_h (e_w (fst (reject cfg sys e))) = w_h (e_w e).
Proof.
  unfold reject, mbind, getw, call_args, ret, lift, modw, modify.
  destruct (w_auto (e_w e)); [destruct (y_restore sys)|]; destruct (c_debug_predictor cfg); simpl;
    try reflexivity; destruct (w_debug (e_w e)) as [[[? ?] ?]|]; reflexivity.
Qed.

(** the natural method walks in the direction chosen at the start *)
Definition nat_inv {F} (dir : bool) (s : natst F) : Prop := n_sign0 s = (if dir then 1 else -1)%R.

Lemma kp_reject {S A} (Q : env S A -> Prop) cfg sys :
  (forall a e, Q e -> Q (set_e_a a e)) -> (forall x e, Q e -> Q (set_e_w (set_w_debug x (e_w e)) e)) ->
  keeps Q (reject cfg sys).
Proof. intros H1 H2. unfold reject. kp ltac:(auto). Qed.
Lemma kp_sign {F A} fin cfg (sys : system A) (lin : linsolver F) (s0 : R) u l st :
  keeps (fun e => n_sign0 (e_s e) = s0) (nat_step F A fin cfg sys lin u l st).
Proof.
  unfold nat_step, step_begin, nat_lambda, nat_predict, nat_jac, nat_solve, write_matrix, push_debug, iterations, nat_iterate,
    after_solve, is_conv, nat_jac, nat_solve, write_matrix.
  kp ltac:(intros; exact H);
    intros e He; try (destruct (y_jac sys _ _ _ _ _) as [a [[m g]|m|]]; exact He);
    destruct (ls_factorize lin _ _) as [f r]; exact He.
Qed.

Theorem natural_ok {F A} fin cfg (sys : system A) (lin : linsolver F) dir :
  ops_ok (natural_ops F A fin cfg sys lin) dir (nat_inv dir).
Proof.
  split; simpl.
  - intros. apply fr_nat_initialize.
  - intros. apply fr_nat_step.
  - apply fr_reject.
  - apply reject_h.
  - intros. apply fr_nat_accept.
  - intros u l e. unfold nat_accept, nat_rerr, mbind, getw, gets, lift, ret, mods, modify.
    destruct (1 <? _); simpl; [destruct (for_range _ _ _ _); simpl; try reflexivity|];
      destruct (vcopy _ _); simpl; try reflexivity; destruct (vcopy _ _); reflexivity.
  - intros u l e e' v l' r H. unfold nat_accept, nat_rerr, vcopy in H. msimp.
    destruct (1 <? _); msimp; destruct (length u =? _); msimp; destruct (_ =? _); msimp; split; reflexivity.
  - intros d u l e e' H. unfold nat_initialize in H. msimp. unfold nat_inv. simpl. reflexivity.
  - intros u l st. apply kp_sign.
  - apply kp_reject; auto.
  - intros u l. unfold nat_accept, nat_rerr. kp ltac:(intros e He; exact He).
Qed.

(** the weight of the arc-length constraint is 0 (lambda target) or 1 *)
Definition arc_inv {F} (s : arcst F) : Prop := a_theta s = 0%R \/ a_theta s = 1%R.

Section KeepArc.
Context {F A : Type} (cfg : config) (sys : system A) (lin : linsolver F).
Lemma kp_arc_jac : keeps (fun e => arc_inv (e_s e)) (arc_jac F A cfg sys lin).
Proof.
  unfold arc_jac, arc_write_matrix. kp ltac:(intros; match goal with Q : arc_inv _ |- _ => exact Q end); intros e He.
  - destruct (y_jac sys _ _ _ _ _) as [a [[m g]|m|]]; exact He.
  - destruct (ls_factorize lin _ _) as [f r]; exact He.
Qed.
Lemma kp_arc_aa b : keeps (fun e => arc_inv (e_s e)) (arc_aa F A cfg sys lin b).
Proof.
  unfold arc_aa, arc_write_matrix. kp ltac:(intros; match goal with Q : arc_inv _ |- _ => exact Q end); intros e He.
  - destruct (y_jac sys _ _ _ _ _) as [a [[m g]|m|]]; exact He.
  - destruct (ls_factorize lin _ _) as [f r]; exact He.
Qed.
Lemma kp_arc_solve v : keeps (fun e => arc_inv (e_s e)) (arc_solve F A lin v).
Proof. unfold arc_solve. kp ltac:(intros; match goal with Q : arc_inv _ |- _ => exact Q end). Qed.
End KeepArc.

Theorem arclength_ok {F A} fin cfg (sys : system A) (lin : linsolver F) dir :
  ops_ok (arclength_ops F A fin cfg sys lin) dir arc_inv.
Proof.
  assert (RD : forall e, fst (arc_rdiff F A cfg sys e) = e).
  { intros e. unfold arc_rdiff, mbind, getw, gets, lift, ret. simpl.
    destruct (c_rdiff_ave cfg); destruct (for_range _ _ _ _); reflexivity. }
  split; simpl.
  - intros. apply fr_arc_initialize.
  - intros. apply fr_arc_step.
  - apply fr_reject.
  - apply reject_h.
  - intros. apply fr_arc_accept.
  - intros u l e. unfold arc_accept, mbind, getw, lift.
    destruct (vcopy _ _); simpl; try reflexivity. pose proof (RD e) as Q.
    destruct (arc_rdiff F A cfg sys e) as [e1 [r|m|]]; simpl in *; subst; reflexivity.
  - intros u l e e' v l' r H. unfold arc_accept, vcopy in H. msimp. destruct (_ =? _); msimp; auto.
  - intros d u l e e' H. unfold arc_initialize in H. apply mbind_ok in H. destruct H as (e1 & [] & H1 & H).
    apply mods_inv in H1.
    match type of H with ?m e1 = _ => assert (K : keeps (fun e => arc_inv (e_s e)) m) end.
    { unfold arc_initial_tangent. kp ltac:(intros; match goal with Q : arc_inv _ |- _ => exact Q end);
        first [apply kp_arc_jac | apply kp_arc_aa | apply kp_arc_solve]. }
    specialize (K e1). rewrite H in K. apply K. subst e1. right. reflexivity.
  - intros u l st. unfold arc_step, step_begin, arc_lambda, arc_predict, push_debug, iterations, arc_iterate, after_solve, is_conv,
      arc_nn, arc_bordering, arc_augmented, arc_update_tangent.
    kp ltac:(intros; first [match goal with Q : arc_inv _ |- _ => exact Q end | left; reflexivity]);
      first [apply kp_arc_jac | apply kp_arc_aa | apply kp_arc_solve].
  - apply kp_reject; auto.
  - intros u l. unfold arc_accept, arc_rdiff. kp ltac:(intros e He; exact He).
Qed.

(* ------------------------------------------------------------------ *)
(** * Proofs *)

Section Driver.
Context {S A : Type}.
Variable fin : R -> bool.
Variable cfg : config.
Variable ops : solver_ops S A.
Variable dir : bool.
Variable Inv : S -> Prop.
Hypothesis OK : ops_ok ops dir Inv.
Variable st : stop.
Variables (u0 : vec) (l0 : R) (cb : option (callback A)).
Variable auto : bool.

(** the chain of accepted states; [o] = true if the criterion was tested at the last one *)
Definition chain (o : bool) (i : nat) (d : drv S A) : Prop :=
  exists k, path ops Inv st u0 l0 (n_accepted d) k (d_u d) (d_l d) /\ k <= i /\
    (o = true -> n_accepted d = 0 \/ stop_now st (k - 1) (d_u d) (d_l d) = Ok false) /\
    (o = false -> k = i) /\ (auto = false -> k = n_accepted d).

(** holds between two passes *)
Record inv (o : bool) (i : nat) (d : drv S A) : Prop := {
  i_path : chain o i d;
  i_steps : n_steps d = i;
  i_sum : n_steps d = n_accepted d + n_rejected d;
  i_target : w_target_reached (dwork d) = false;
  i_rej : w_n_cont_rejection (dwork d) = 0;
  i_fix : auto = false -> n_rejected d = 0;
  i_inv : Inv (e_s (d_env d));
  i_cb : cb_of d = cb }.

(** holds at the end *)
Definition reached (d : drv S A) : Prop := exists n k, path ops Inv st u0 l0 n k (d_u d) (d_l d).

Lemma chain_reached o i d : chain o i d -> reached d.
Proof. intros (k & H & _). exists (n_accepted d), k. exact H. Qed.
Lemma chain_same o i d d' : d_u d' = d_u d -> d_l d' = d_l d -> n_accepted d' = n_accepted d -> chain o i d -> chain o i d'.
Proof. unfold chain. intros -> -> ->. auto. Qed.
Lemma inv_reached o i d : inv o i d -> reached d.
Proof. intros H. eapply chain_reached, H. Qed.

Lemma execute_cb w u l (o : output A) a o' a' r : execute w u l o a = (o', a', r) -> o_cb o' = o_cb o.
Proof.
  unfold execute. intros H.
  destruct (match o_cb o with Some c => c (w_stats w) u l (w_h w) a | None => (a, Ok false) end) as [a1 r1].
  destruct r1 as [[|]|m|]; try (injection H as <- _ _; reflexivity).
  destruct (o_rec o); [|injection H as <- _ _; reflexivity].
  destruct (record_row w u l o) as [o1|m|] eqn:E; injection H as <- _ _; try reflexivity.
  unfold record_row in E. unfold bind in E.
  destruct (o_norm o) as [[[k b] e]|]; [destruct (vnorm_chunk u k b e); try discriminate|];
    destruct (push_all _ u); try discriminate; destruct (_ =? _); try (injection E as <-; reflexivity);
    destruct (push_all _ (w_duds w)); try discriminate; injection E as <-; reflexivity.
Qed.

(** the output step changes only the output and `args` *)
Lemma output_same d d' r : output_step S A d = (d', r) ->
  d_u d' = d_u d /\ d_l d' = d_l d /\ dwork d' = dwork d /\ cb_of d' = cb_of d /\
  (r = Ok true -> user_stop d') /\ e_s (d_env d') = e_s (d_env d).
Proof.
  unfold output_step. destruct (d_out d) as [o|] eqn:EO.
  - destruct (execute _ _ _ o _) as [[o' a] r'] eqn:EX. intros H; injection H as <- <-.
    simpl. repeat split; auto.
    + unfold cb_of. simpl. rewrite EO. eapply execute_cb; eassumption.
    + intros ->. unfold user_stop, cb_of. simpl. rewrite (execute_cb _ _ _ _ _ _ _ _ EX).
      unfold execute in EX. destruct (o_cb o) as [c|].
      * destruct (c (w_stats (e_w (d_env d))) (d_u d) (d_l d) (w_h (e_w (d_env d))) (e_a (d_env d))) as [a1 r1] eqn:EC.
        destruct r1 as [[|]|m|]; try discriminate.
        -- do 5 eexists. split; [reflexivity | exact EC].
        -- destruct (o_rec o); [destruct (record_row _ _ _ _)|]; discriminate.
      * simpl in EX. destruct (o_rec o); [destruct (record_row _ _ _ _)|]; discriminate.
  - intros H; injection H as <- <-. repeat split; auto. discriminate.
Qed.

(** [stepped i d]: between the call of `step` and the decision *)
Record stepped (i : nat) (d : drv S A) : Prop := {
  s_path : chain true i d;
  s_steps : n_steps d = i + 1;
  s_sum : n_steps d = n_accepted d + n_rejected d + 1;
  s_target : w_target_reached (dwork d) = false;
  s_rej : w_n_cont_rejection (dwork d) = 0;
  s_fix : auto = false -> n_rejected d = 0;
  s_inv : Inv (e_s (d_env d));
  s_cb : cb_of d = cb }.
Definition good (s : status) (d : drv S A) : Prop :=
  s = Success -> acc_step ops Inv st (d_u d) (d_l d) (w_u (dwork d)) (w_l (dwork d)).

Definition same_drv (d d' : drv S A) : Prop :=
  d_u d' = d_u d /\ d_l d' = d_l d /\ d_out d' = d_out d /\ same_flags (dwork d) (dwork d') /\ (Inv (e_s (d_env d)) -> Inv (e_s (d_env d'))).
Lemma stepped_same i d d' : same_drv d d' -> stepped i d -> stepped i d'.
Proof.
  intros (E1 & E2 & E3 & F1 & F2) H. destruct H. unfold same_flags, n_steps, n_accepted, n_rejected, dwork, cb_of in *.
  destruct F1 as (? & ? & ? & ? & ? & ? & ? & Ea & ? & ?).
  constructor; unfold n_steps, n_accepted, n_rejected, dwork, cb_of in *; try congruence.
  - eapply chain_same; eauto.
  - intros Ef. rewrite H6. auto.
  - apply F2. assumption.
  - rewrite E3. exact s_cb0.
Qed.

(** the step *)
Lemma step_stepped i d : inv true i d ->
  forall e r, op_step ops (d_u d) (d_l d) st
     (d_env (set_d_env (set_e_w (set_w_stats (set_st_n_steps (st_n_steps (w_stats (dwork d)) + 1) (w_stats (dwork d))) (dwork d)) (d_env d)) d)) = (e, r) ->
  let d' := set_d_env e (set_d_env (set_e_w (set_w_stats (set_st_n_steps (st_n_steps (w_stats (dwork d)) + 1) (w_stats (dwork d))) (dwork d)) (d_env d)) d) in
  stepped i d' /\ (forall s, r = Ok s -> good s d').
Proof.
  intros I e r H d'. destruct I as [I1 I2 I3 I4 I5 I7 I8 I6].
  pose proof (ok_step _ _ _ OK (d_u d) (d_l d) st (d_env (set_d_env (set_e_w (set_w_stats (set_st_n_steps (st_n_steps (w_stats (dwork d)) + 1) (w_stats (dwork d))) (dwork d)) (d_env d)) d))) as Fr.
  rewrite H in Fr. simpl in Fr. unfold same_flags in Fr. simpl in Fr.
  destruct Fr as (? & ? & ? & ? & ? & ? & ? & ? & ? & ?).
  split.
  - unfold n_steps, n_accepted, n_rejected, dwork, cb_of in *.
    constructor; unfold n_steps, n_accepted, n_rejected, dwork, cb_of; simpl; try congruence.
    + eapply chain_same; [| | | exact I1]; try reflexivity; unfold n_accepted, dwork; simpl; congruence.
    + intros Ef. rewrite H8. auto.
    + pose proof (ok_inv_step _ _ _ OK (d_u d) (d_l d) st _ I8) as K.
      unfold dwork in H. simpl in H, K. match type of H with op_step _ _ _ _ ?x = _ => specialize (ok_inv_step _ _ _ OK (d_u d) (d_l d) st x I8) as K' end.
      rewrite H in K'. exact K'.
  - intros s -> Es. subst s. do 2 eexists. split; [|split; [exact H | split; reflexivity]]. exact I8.
Qed.

(** accepting *)
Lemma accept_inv i d d' r : stepped i d -> good Success d ->
  do_accept S A ops (set_d_env (set_e_w (set_w_stats (set_st_n_accepted (st_n_accepted (w_stats (dwork d)) + 1) (w_stats (dwork d))) (dwork d)) (d_env d)) d) = (d', r) ->
  match r with Ok _ => inv false (i + 1) d' | _ => reached d' end /\
  (w_h (dwork d') = w_h (dwork d)) /\
  w_follows_failure (dwork d') = w_follows_failure (dwork d) /\
  w_follows_rejection (dwork d') = w_follows_rejection (dwork d).
Proof.
  intros H G E. unfold do_accept in E. simpl in E.
  destruct (op_accept ops (d_u d) (d_l d) (set_e_w (set_w_stats (set_st_n_accepted (st_n_accepted (w_stats (dwork d)) + 1) (w_stats (dwork d))) (dwork d)) (d_env d))) as [e r1] eqn:EA.
  pose proof (ok_accept_frame _ _ _ OK (d_u d) (d_l d) (set_e_w (set_w_stats (set_st_n_accepted (st_n_accepted (w_stats (dwork d)) + 1) (w_stats (dwork d))) (dwork d)) (d_env d))) as Fr.
  pose proof (ok_accept_h _ _ _ OK (d_u d) (d_l d) (set_e_w (set_w_stats (set_st_n_accepted (st_n_accepted (w_stats (dwork d)) + 1) (w_stats (dwork d))) (dwork d)) (d_env d))) as Fh.
  rewrite EA in Fr, Fh. simpl in Fr, Fh. unfold same_flags in Fr. simpl in Fr.
  destruct Fr as (? & ? & ? & ? & ? & ? & ? & ? & ? & ?).
  destruct H as [H01 H02 H03 H04 H05 H07 H08 H06].
  assert (RC : forall e', reached (set_d_env e' d)) by (intros e'; apply (chain_reached true i d H01)).
  destruct r1 as [[[v l'] r1]|m|]; injection E as <- <-; simpl; unfold dwork in *; simpl in *; repeat split; auto.
  - destruct (ok_accept _ _ _ OK _ _ _ _ _ _ _ EA) as [-> ->]. simpl.
    destruct H01 as (k & P1 & P2 & P3 & P4 & P5). exists (i + 1).
    unfold n_accepted, dwork in *; cbn [d_env set_d_env set_d_u set_d_l d_u d_l]. rewrite H7.
    repeat split; try lia; try discriminate.
    + eapply path_S; [exact P1 | exact (P3 eq_refl) | lia | exact (G eq_refl)].
    + intros Ea. specialize (P5 Ea). specialize (H07 Ea). unfold n_steps, n_rejected, dwork in *. lia.
  - unfold n_steps, n_accepted, n_rejected, dwork in *; simpl; lia.
  - unfold n_steps, n_accepted, n_rejected, dwork in *; simpl; lia.
  - unfold dwork; simpl; congruence.
  - unfold dwork; simpl; congruence.
  - intros Ef. specialize (H07 Ef). unfold n_rejected, dwork in *; simpl in *; congruence.
  - match type of EA with op_accept _ _ _ ?x = _ => specialize (ok_inv_accept _ _ _ OK (d_u d) (d_l d) x H08) as K' end.
    rewrite EA in K'. exact K'.
  - apply (RC e).
  - apply (RC e).
Qed.

Definition from_step (s : status) (d : drv S A) : Prop :=
  exists e e', op_step ops (d_u d) (d_l d) st e = (e', Ok s).

Ltac nx := let x := fresh in intros x; cbv beta; clear x.
Lemma t_step i {X} (k : status -> M (drv S A) X) Q (Z : drv S A -> Prop) :
  (forall d, reached d -> Z d) ->
  (forall s, triple (fun d => stepped i d /\ good s d /\ from_step s d) (k s) Q Z) ->
  triple (inv true i)
    (mdst S A (fun s => set_st_n_steps (st_n_steps s + 1) s) ;;;
     d <~ get ;;
     s <~ on_env S A (op_step ops (d_u d) (d_l d) st) ;;
     k s) Q Z.
Proof.
  intros HZ HK d I. unfold mdst, modst, modw, on_env, modify, get, mbind. simpl.
  pose proof (step_stepped i d I) as HS. simpl in HS. unfold dwork in HS.
  match type of HS with forall e r, op_step _ _ _ _ ?x = _ -> _ => destruct (op_step ops (d_u d) (d_l d) st x) as [e r] eqn:E end.
  destruct (HS e r eq_refl) as [H1 H2].
  destruct r as [s|m|].
  - apply HK. split; [exact H1|]. split; [exact (H2 s eq_refl)|]. do 2 eexists; exact E.
  - apply HZ. apply (inv_reached true i d I).
  - apply HZ. apply (inv_reached true i d I).
Qed.

(** what the result of [solve] says *)
Definition final (N : nat) (s : status) (d : drv S A) : Prop :=
  (exists k, path ops Inv st u0 l0 (n_accepted d) k (d_u d) (d_l d) /\ k <= n_steps d /\ (auto = false -> k = n_accepted d)) /\
  n_steps d <= N /\
  (auto = false -> n_rejected d = 0) /\
  match s with
  | Success =>
      n_steps d = n_accepted d + n_rejected d /\
      (user_stop d \/
       (1 <= n_steps d /\ stop_now st (n_steps d - 1) (d_u d) (d_l d) = Ok true) \/
       n_steps d = N)
  | _ =>
      (n_steps d = n_accepted d + n_rejected d + 1 /\
       (from_step s d \/
        (s = ContinuedFailure /\ c_n_cont_failure_max cfg <= w_n_cont_failure (dwork d)) \/
        (s = ContinuedRejection /\ c_n_cont_rejection_max cfg <= 0))) \/
      (n_steps d = n_accepted d + n_rejected d /\
       ((s = SmallStepsize /\ (w_h (dwork d) < H_MIN)%R) \/ (try_again s = true /\ n_steps d = N)))
  end.

Lemma t_output o i {X} (k : bool -> M (drv S A) X) Q (Z : drv S A -> Prop) :
  (forall d, reached d -> Z d) ->
  (forall b, triple (fun d => inv o i d /\ (b = true -> user_stop d)) (k b) Q Z) ->
  triple (inv o i) (b <~ output_step S A ;; k b) Q Z.
Proof.
  intros HZ HK d I. unfold mbind. destruct (output_step S A d) as [d' r] eqn:E.
  destruct (output_same _ _ _ E) as (E1 & E2 & E3 & E4 & E5 & E6).
  assert (I' : inv o i d').
  { destruct I. constructor;
      [eapply chain_same; [exact E1 | exact E2 | unfold n_accepted; rewrite E3; reflexivity | assumption]
      |unfold n_steps, n_accepted, n_rejected in *; rewrite ?E3, ?E1, ?E2, ?E4, ?E6; assumption ..]. }
  destruct r as [b|m|].
  - apply HK. split; [exact I'|]. intros ->. auto.
  - apply HZ, (inv_reached _ _ _ I').
  - apply HZ, (inv_reached _ _ _ I').
Qed.

Lemma inv_same o i d d' : same_drv d d' -> inv o i d -> inv o i d'.
Proof.
  intros (E1 & E2 & E3 & F1 & F2) H. destruct H. unfold same_flags, n_steps, n_accepted, n_rejected, dwork, cb_of in *.
  destruct F1 as (? & ? & ? & ? & ? & ? & ? & Ea & Er & ?).
  constructor; unfold n_steps, n_accepted, n_rejected, dwork, cb_of in *; try congruence.
  - eapply chain_same; eauto.
  - intros. rewrite Er. auto.
  - apply F2. assumption.
  - rewrite E3. exact i_cb0.
Qed.

Lemma t_mdw (P : drv S A -> Prop) f (Q : unit -> drv S A -> Prop) Z :
  (forall d, P d -> Q tt (set_d_env (set_e_w (f (dwork d)) (d_env d)) d)) -> triple P (mdw S A f) Q Z.
Proof. intros H d Hd. exact (H d Hd). Qed.
Lemma t_mdst (P : drv S A -> Prop) f (Q : unit -> drv S A -> Prop) Z :
  (forall d, P d -> Q tt (set_d_env (set_e_w (set_w_stats (f (w_stats (dwork d))) (dwork d)) (d_env d)) d)) ->
  triple P (mdst S A f) Q Z.
Proof. intros H d Hd. exact (H d Hd). Qed.
Lemma t_dw (P : drv S A -> Prop) (Q : work -> drv S A -> Prop) Z :
  (forall d, P d -> Q (dwork d) d) -> triple P (dw S A) Q Z.
Proof. intros H d Hd. exact (H d Hd). Qed.

Lemma chain_final o i d : chain o i d -> n_steps d = i ->
  exists k, path ops Inv st u0 l0 (n_accepted d) k (d_u d) (d_l d) /\ k <= n_steps d /\ (auto = false -> k = n_accepted d).
Proof. intros (k & P1 & P2 & _ & _ & P3) <-. eauto. Qed.
Lemma chain_final1 o i d : chain o i d -> n_steps d = i + 1 ->
  exists k, path ops Inv st u0 l0 (n_accepted d) k (d_u d) (d_l d) /\ k <= n_steps d /\ (auto = false -> k = n_accepted d).
Proof. intros (k & P1 & P2 & _ & _ & P3) E. exists k. repeat split; auto. lia. Qed.
Hint Resolve chain_final chain_final1 : core.

Lemma inv_final_now i d N : i < N -> inv false (i + 1) d -> stop_now st i (d_u d) (d_l d) = Ok true -> final N Success d.
Proof.
  intros Hi I H. destruct I. unfold final. split; [eauto|]. repeat split; auto; try lia.
  right; left. rewrite i_steps0. replace (i + 1 - 1) with i by lia. split; [lia | exact H].
Qed.
Lemma inv_final_user i d N : i < N -> inv false (i + 1) d -> user_stop d -> final N Success d.
Proof. intros Hi I H. destruct I. unfold final. split; [eauto|]. repeat split; auto; lia. Qed.
Lemma inv_open i d : inv false (i + 1) d -> stop_now st i (d_u d) (d_l d) = Ok false -> inv true (i + 1) d.
Proof.
  intros I H. destruct I as [C ? ? ? ? ? ?]. constructor; auto.
  destruct C as (k & P1 & P2 & P3 & P4 & P5). exists k. repeat split; auto; try discriminate.
  intros _. right. rewrite (P4 eq_refl). replace (i + 1 - 1) with i by lia. exact H.
Qed.

(** tail of an accepted step *)
Lemma t_tail i N {X} (c : X) (k : bool -> M (drv S A) X) Q (Z : drv S A -> Prop) :
  i < N ->
  (forall d, reached d -> Z d) ->
  (forall b, triple (fun d => if b : bool then final N Success d else inv true (i + 1) d) (k b) Q Z) ->
  triple (inv false (i + 1))
    (b <~ output_step S A ;;
     if b then k true
     else
       d <~ get ;;
       b <~ lift (stop_now st i (d_u d) (d_l d)) ;;
       k b) Q Z.
Proof.
  intros Hi HZ HK. apply t_output; [exact HZ|]. intros [|].
  - eapply t_pre; [|apply HK]. intros d [I U]. eapply inv_final_user; eauto.
  - intros d [I _]. unfold get, lift, mbind. destruct (stop_now st i (d_u d) (d_l d)) as [b|m|] eqn:E.
    + apply HK. destruct b; [eapply inv_final_now | eapply inv_open]; eauto.
    + apply HZ, (inv_reached _ _ _ I).
    + apply HZ, (inv_reached _ _ _ I).
Qed.

Lemma t_accept i {X} (k : R -> M (drv S A) X) Q (Z : drv S A -> Prop) :
  (forall d, reached d -> Z d) ->
  (forall r, triple (inv false (i + 1)) (k r) Q Z) ->
  triple (fun d => stepped i d /\ good Success d)
    (mdst S A (fun t => set_st_n_accepted (st_n_accepted t + 1) t) ;;;
     r <~ do_accept S A ops ;;
     k r) Q Z.
Proof.
  intros HZ HK d [H G]. unfold mdst, modst, modw, on_env, modify, mbind.
  match goal with |- context [do_accept S A ops ?x] => destruct (do_accept S A ops x) as [d' r] eqn:E end.
  destruct (accept_inv i d d' r H G E) as [I _].
  destruct r as [r|m|]; [apply HK; exact I | apply HZ, I | apply HZ, I].
Qed.

Lemma failure_true s : failure s = true -> s <> Success.
Proof. intros H ->. discriminate. Qed.
Lemma failure_false s : failure s = false -> s = Success.
Proof. destruct s; simpl; intros H; try discriminate; reflexivity. Qed.

Lemma t_fixed ddl i N s0 : i < N -> auto = false ->
  triple (inv true i) (fixed_body S A fin cfg ops st ddl i s0)
    (fun r d => if fst r then final N (snd r) d else inv true (i + 1) d /\ snd r = Success) reached.
Proof.
  intros Hi Ha. unfold fixed_body. apply t_step; [auto|]. intros s. apply t_if; intros Hf.
  - apply t_ret. intros d (H & _ & G). simpl. apply failure_true in Hf. destruct H.
    unfold final. split; [eauto|]. repeat split; auto; try lia.
    assert (n_steps d = n_accepted d + n_rejected d + 1) by lia.
    destruct s; try (left; split; [assumption | left; exact G]). congruence.
  - apply failure_false in Hf. subst s.
    eapply t_pre; [intros d (H & G & _); exact (conj H G)|].
    apply t_accept; [auto|]. nx.
    eapply t_bind.
    { instantiate (1 := fun _ => inv false (i + 1)). apply t_if; intros _; [|apply t_ret; auto].
      eapply t_bind with (Q' := fun _ => inv false (i + 1)).
      { apply t_lift. intros d I. destruct (vget _ _); auto; exact (inv_reached _ _ _ I). }
      intros nx. apply t_if; intros _.
      { apply t_lift. intros d I. exact (inv_reached _ _ _ I). }
      destruct (c_method cfg).
      - eapply t_bind with (Q' := fun _ => inv false (i + 1)); [apply t_dw; auto|]. intros w.
        apply t_if; intros _.
        + apply t_lift. intros d I. exact (inv_reached _ _ _ I).
        + apply t_mdw. intros d I. eapply inv_same; [|exact I]. repeat split; auto.
      - apply t_mdw. intros d I. eapply inv_same; [|exact I]. repeat split; auto. }
    nx. eapply t_bind with (Q' := fun _ => inv false (i + 1)).
    { apply t_mdw. intros d I. destruct I. constructor; assumption. }
    nx. eapply t_bind with (Q' := fun _ => inv false (i + 1)); [apply t_get; auto|]. intros d0.
    eapply t_bind with (Q' := fun _ => inv false (i + 1)).
    { apply t_lift. intros d I. destruct (vall_finite _ _); auto; exact (inv_reached _ _ _ I). }
    nx. apply (t_tail i N (true, Success) (fun b => ret (b, Success))); auto.
    intros b. apply t_ret. intros d. simpl. destruct b; intuition.
Qed.

Lemma t_check s i :
  triple (fun d => stepped i d /\ good s d /\ from_step s d) (check_precise S A cfg st s)
    (fun s' d => stepped i d /\ good s' d /\ (from_step s' d \/ s' = UnmetStopCriterion)) reached.
Proof.
  unfold check_precise. apply t_if; intros _; [|apply t_ret; intuition].
  destruct (stop_u_comp st) as [[[j u1] b]|]; [|apply t_ret; intuition].
  eapply t_bind with (Q' := fun _ d => stepped i d /\ good s d /\ from_step s d); [apply t_dw; auto|].
  intros w. eapply t_bind with (Q' := fun _ d => stepped i d /\ good s d /\ from_step s d).
  { apply t_lift. intros d (H & G). destruct (vget _ _); auto; apply (chain_reached true i d); apply H. }
  intros ui. apply t_if; intros _; apply t_ret; intros d (H & G & F); repeat split; auto; try apply H.
  intros E; discriminate E.
Qed.

Lemma t_finish i N s : i < N -> auto = true ->
  triple (fun d => stepped i d /\ good s d) (auto_finish S A fin cfg ops st i s)
    (fun b d => if b : bool then s = Success /\ final N Success d else inv true (i + 1) d) reached.
Proof.
  intros Hi Ha. unfold auto_finish. apply t_if; intros Hf.
  - eapply t_pre; [intros d [H _]; exact H|].
    eapply t_bind with (Q' := fun _ => inv true (i + 1)).
    { apply t_mdst. intros d H. destruct H.
      constructor; unfold n_steps, n_accepted, n_rejected, dwork in *; simpl in *; auto; try lia; try congruence.
      destruct s_path0 as (k & P1 & P2 & P3 & P4 & P5). exists k. repeat split; auto; try lia; try discriminate; congruence. }
    nx. eapply t_bind with (Q' := fun _ => inv true (i + 1)).
    { apply t_mdw. intros d I. destruct I. constructor; assumption. }
    nx. eapply t_bind with (Q' := fun _ => inv true (i + 1)).
    { intros d I. unfold on_env. pose proof (ok_reject _ _ _ OK (d_env d)) as Fr.
      destruct (op_reject ops (d_env d)) as [e r] eqn:ER. simpl in Fr.
      assert (I' : inv true (i + 1) (set_d_env e d)).
      { eapply inv_same; [|exact I]. repeat split; try apply Fr.
        intros K. pose proof (ok_inv_reject _ _ _ OK (d_env d) K) as K'. rewrite ER in K'. exact K'. }
      destruct r; auto; exact (inv_reached _ _ _ I'). }
    nx. eapply t_bind with (Q' := fun _ => inv true (i + 1)).
    { apply t_mdw. intros d I. eapply inv_same; [|exact I]. repeat split; auto. }
    nx. apply t_ret. auto.
  - apply failure_false in Hf. subst s. apply t_accept; [auto|]. intros rd.
    eapply t_bind with (Q' := fun _ => inv false (i + 1)); [apply t_get; auto|]. intros d0.
    eapply t_bind with (Q' := fun _ => inv false (i + 1)).
    { apply t_lift. intros d I. destruct (vall_finite _ _); auto; exact (inv_reached _ _ _ I). }
    nx. eapply t_bind with (Q' := fun w d => inv false (i + 1) d /\ w_target_reached w = false).
    { apply t_dw. intros d I. split; [exact I | apply I]. }
    intros w. intros d [I Ht]. revert I. rewrite Ht. revert d.
    change (triple (inv false (i + 1))
      (h_est <~ adapt_stepsize S A cfg rd ;;
       w <~ dw S A ;;
       mdw S A (set_w_h (if w_follows_failure w || w_follows_rejection w then Rmin h_est (w_h w) else h_est)) ;;;
       mdst S A (set_st_h_accepted (if w_follows_failure w || w_follows_rejection w then Rmin h_est (w_h w) else h_est)) ;;;
       mdw S A (set_w_n_cont_failure 0) ;;;
       mdw S A (set_w_n_cont_rejection 0) ;;;
       mdw S A (set_w_follows_failure false) ;;;
       mdw S A (set_w_follows_rejection false) ;;;
       b <~ output_step S A ;;
       (if b then ret true else d <~ get ;; lift (stop_now st i (d_u d) (d_l d))))
      (fun b d => if b : bool then Success = Success /\ final N Success d else inv true (i + 1) d) reached).
    eapply t_bind with (Q' := fun _ => inv false (i + 1)).
    { unfold adapt_stepsize. eapply t_bind with (Q' := fun _ => inv false (i + 1)); [apply t_get; auto|]. intros d1.
      eapply t_bind with (Q' := fun _ => inv false (i + 1)).
      { apply t_lift. intros d I. destruct (assert_ _); auto; exact (inv_reached _ _ _ I). }
      nx. do 4 (eapply t_bind with (Q' := fun _ => inv false (i + 1));
        [apply t_modify; intros d I; eapply inv_same; [|exact I]; repeat split; auto|]; nx).
      apply t_ret; auto. }
    intros h. eapply t_bind with (Q' := fun _ => inv false (i + 1)); [apply t_dw; auto|]. intros w1.
    do 6 (eapply t_bind with (Q' := fun _ => inv false (i + 1));
      [first [apply t_mdst | apply t_mdw]; intros d I; destruct I; constructor; try assumption; reflexivity|]; nx).
    apply t_output; [auto|]. intros [|].
    + apply t_ret. intros d [I U]. split; [reflexivity|]. eapply inv_final_user; eauto.
    + intros d [I _]. unfold get, lift, mbind. destruct (stop_now st i (d_u d) (d_l d)) as [b|m|] eqn:E;
        try exact (inv_reached _ _ _ I).
      destruct b; [split; [reflexivity|]; eapply inv_final_now | eapply inv_open]; eauto.
Qed.

Lemma t_auto i N s0 : i < N -> auto = true ->
  triple (inv true i) (auto_body S A fin cfg ops st i s0)
    (fun r d => if fst r then final N (snd r) d else inv true (i + 1) d /\ (failure (snd r) = true -> try_again (snd r) = true)) reached.
Proof.
  intros Hi Ha. unfold auto_body. apply t_step; [auto|]. intros s.
  eapply t_bind; [apply t_check|]. clear s0. intros s1. clear s. rename s1 into s. apply t_if; intros Hf.
  - apply andb_true_iff in Hf. destruct Hf as [Hf Ht]. apply failure_true in Hf.
    apply t_ret. intros d (H & _ & G). simpl. destruct H.
    assert (G' : from_step s d).
    { destruct G as [G| ->]; [exact G | discriminate Ht]. }
    unfold final. split; [eauto|]. repeat split; auto; try lia.
    assert (n_steps d = n_accepted d + n_rejected d + 1) by lia.
    destruct s; try (left; split; [assumption | left; exact G']). congruence.
  - eapply t_pre; [intros d (H & G & _); exact (conj H G)|].
    eapply t_bind with (Q' := fun _ d => stepped i d /\ good s d).
    { apply t_if; intros _; [|apply t_ret; auto].
      eapply t_bind with (Q' := fun _ d => stepped i d /\ good s d).
      { apply t_mdw. intros d [H G]. split; [destruct H; constructor; assumption|]. intros E. exact (G E). }
      nx. apply t_mdw. intros d [H G]. split; [destruct H; constructor; assumption|]. intros E. exact (G E). }
    nx.
    eapply t_bind with (Q' := fun w d => stepped i d /\ good s d /\ w = dwork d); [apply t_dw; intuition|].
    intros w. apply t_if; intros Hc.
    { apply Nat.leb_le in Hc. apply t_ret. intros d (H & _ & ->). simpl. destruct H.
      unfold final. split; [eauto|]. repeat split; auto; try lia. left. split; [lia|]. right; left. split; [reflexivity | exact Hc]. }
    apply t_if; intros Hr.
    { apply Nat.leb_le in Hr. apply t_ret. intros d (H & _ & ->). simpl. destruct H.
      unfold final. split; [eauto|]. repeat split; auto; try lia. left. split; [lia|]. right; right. split; [reflexivity | lia]. }
    eapply t_pre; [intros d (H & G & _); exact (conj H G)|].
    eapply t_bind; [apply (t_finish i N s Hi Ha)|]. intros b.
    apply t_if; intros ->.
    + apply t_ret. intros d [-> H]. exact H.
    + eapply t_bind with (Q' := fun w d => inv true (i + 1) d /\ w = dwork d); [apply t_dw; auto|].
      intros w1. apply t_if; intros Hh; apply t_ret; intros d [I ->]; simpl;
        [|split; [exact I|]; intros Ef; rewrite Ef in Hf; destruct (try_again s); [reflexivity | discriminate Hf]].
      destruct (Rltb_spec (w_h (dwork d)) H_MIN); [|discriminate]. destruct I.
      unfold final. split; [eauto|]. repeat split; auto; try lia.
Qed.
End Driver.

(** * C66 *)
Section C66.
Context {S A : Type}.
Variable fin : R -> bool.
Variable cfg : config.
Variable ops : solver_ops S A.
Variable dir : bool.
Variable Inv : S -> Prop.
Hypothesis OK : ops_ok ops dir Inv.

Lemma C66_main ndim st ddl d d' r :
  solve S A fin cfg ops ndim dir st ddl d = (d', r) ->
  match r with
  | Ok s => final cfg ops Inv st (d_u d) (d_l d) (dl_auto ddl) (budget cfg ddl) s d'
  | _ => reached ops Inv st (d_u d) (d_l d) d'
  end.
Proof.
  set (u0 := d_u d). set (l0 := d_l d).
  assert (R0 : forall dd, d_u dd = u0 -> d_l dd = l0 -> reached ops Inv st u0 l0 dd).
  { intros dd E1 E2. exists 0, 0. rewrite E1, E2. constructor. }
  unfold solve, mbind, get, lift. intros H.
  destruct (negb (length (d_u d) =? ndim)); [injection H as <- <-; apply R0; reflexivity|].
  destruct (stop_validate st (d_u d) (d_l d)) as [[]|m|]; try (injection H as <- <-; apply R0; reflexivity).
  unfold mdw, modw, modify, on_env in H. simpl in H.
  destruct (ddl_initial ddl st (d_l d)) as [ini|m|]; try (injection H as <- <-; apply R0; reflexivity).
  match type of H with context [op_initialize ops ini ?a ?b ?c ?e] =>
    pose proof (ok_init _ _ _ OK ini a b c e) as Fr;
    destruct (op_initialize ops ini a b c e) as [e1 [[]|m|]] eqn:EI end;
    try (injection H as <- <-; apply R0; reflexivity).
  simpl in Fr.
  match type of H with context [output_step S A ?x] => set (d1 := x) in H end.
  assert (I0 : inv ops Inv st u0 l0 (cb_of d1) (dl_auto ddl) true 0 d1).
  { unfold same_flags in Fr. simpl in Fr. destruct Fr as (? & ? & ? & ? & ? & ? & Fs & Fa & Frj & ?).
    constructor; unfold n_steps, n_accepted, n_rejected, dwork; subst d1; simpl; rewrite ?Fs, ?Fa, ?Frj; auto.
    - exists 0. unfold n_accepted, dwork; simpl. rewrite Fa. repeat split; auto. constructor.
    - exact (ok_inv_init _ _ _ OK _ _ _ _ _ EI). }
  destruct (output_step S A d1) as [d2 r2] eqn:EO.
  destruct (output_same _ _ _ EO) as (E1 & E2 & E3 & E4 & E5 & E6).
  assert (I2 : inv ops Inv st u0 l0 (cb_of d1) (dl_auto ddl) true 0 d2).
  { destruct I0. constructor;
      [eapply chain_same; [exact E1 | exact E2 | unfold n_accepted; rewrite E3; reflexivity | assumption]
      |unfold n_steps, n_accepted, n_rejected in *; rewrite ?E3, ?E1, ?E2, ?E4, ?E6; assumption ..]. }
  destruct r2 as [[|]|m|].
  - injection H as <- <-. destruct I2. unfold final. split; [eapply chain_final; eauto|].
    repeat split; auto; lia.
  - destruct (dl_auto ddl) eqn:Ea; simpl in H.
    + pose proof (t_loop (auto_body S A fin cfg ops st)
        (fun i s dd => inv ops Inv st u0 l0 (cb_of d1) true true i dd /\ (failure s = true -> try_again s = true))
        (final cfg ops Inv st u0 l0 true (budget cfg ddl)) (reached ops Inv st u0 l0)
        (c_n_step_max cfg) 0 Success) as T.
      assert (EB : budget cfg ddl = c_n_step_max cfg) by (unfold budget; rewrite Ea; reflexivity).
      rewrite EB in *.
      match type of T with ?P -> ?Q -> _ => assert (T1 : P); [|assert (T2 : Q); [|specialize (T T1 T2)]] end.
      * intros j y Hj. eapply t_pre; [intros e [I _]; exact I|].
        eapply t_post; [apply (t_auto fin cfg ops dir Inv OK st u0 l0 (cb_of d1) true j (c_n_step_max cfg) y); [lia|reflexivity] | |auto].
        intros [b x] e; simpl. destruct b; auto.
      * intros y e [I HT]. destruct I. unfold final. split; [eapply chain_final; eauto|]. repeat split; auto; try lia.
        destruct y; try (right; split; [exact i_sum0 | right; split; [apply HT; reflexivity | simpl in *; lia]]).
        split; [exact i_sum0 | right; right; simpl in *; lia].
      * specialize (T d2). rewrite H in T.
        assert (T3 : inv ops Inv st u0 l0 (cb_of d1) true true 0 d2 /\ (failure Success = true -> try_again Success = true))
          by (split; [exact I2 | intros K; discriminate K]).
        specialize (T T3). destruct r; auto.
    + pose proof (t_loop (fixed_body S A fin cfg ops st ddl)
        (fun i s dd => inv ops Inv st u0 l0 (cb_of d1) false true i dd /\ s = Success)
        (final cfg ops Inv st u0 l0 false (budget cfg ddl)) (reached ops Inv st u0 l0)
        (budget cfg ddl) 0 Success) as T.
      assert (EB : (if 0 <? length (dl_list ddl) then length (dl_list ddl) else c_n_step_max cfg) = budget cfg ddl).
      { unfold budget. rewrite Ea. destruct (dl_list ddl); reflexivity. }
      rewrite EB in H. set (N := budget cfg ddl) in *.
      match type of T with ?P -> ?Q -> _ => assert (T1 : P); [|assert (T2 : Q); [|specialize (T T1 T2)]] end.
      * intros j y Hj. eapply t_pre; [intros e [I _]; exact I|].
        apply (t_fixed fin cfg ops dir Inv OK st u0 l0 (cb_of d1) false ddl j N y); [lia|reflexivity].
      * intros y e [I ->]. destruct I. unfold final. split; [eapply chain_final; eauto|]. repeat split; auto; try lia.
      * specialize (T d2 (conj I2 eq_refl)). rewrite H in T. destruct r; auto.
  - injection H as <- <-. apply (inv_reached _ _ _ _ _ _ _ _ _ _ I2).
  - injection H as <- <-. apply (inv_reached _ _ _ _ _ _ _ _ _ _ I2).
Qed.
End C66.

(* ------------------------------------------------------------------ *)
(** * C66: theorems *)

(** Whatever the outcome (status, error, panic), the (u, lambda) left to the caller was produced by
    a chain of steps that all reported success, starting at the initial state: rejected and failed
    trials leave no trace.  The chain never goes on from an accepted state at which the stop
    criterion holds. *)
Theorem C66_path {S A} fin cfg (ops : solver_ops S A) (Inv : S -> Prop) ndim dir st ddl d d' r :
  ops_ok ops dir Inv -> solve S A fin cfg ops ndim dir st ddl d = (d', r) ->
  exists n k, path ops Inv st (d_u d) (d_l d) n k (d_u d') (d_l d').
Proof.
  intros OK H. pose proof (C66_main fin cfg ops dir Inv OK _ _ _ _ _ _ H) as Q.
  destruct r as [s|m|]; auto. destruct Q as [(k & Q & _) _]. eauto.
Qed.

(** A status is returned within the budget of passes; the accepted steps are counted one by one;
    with prescribed steps nothing is ever retried. *)
Theorem C66_counts {S A} fin cfg (ops : solver_ops S A) (Inv : S -> Prop) ndim dir st ddl d d' s :
  ops_ok ops dir Inv -> solve S A fin cfg ops ndim dir st ddl d = (d', Ok s) ->
  (exists k, path ops Inv st (d_u d) (d_l d) (n_accepted d') k (d_u d') (d_l d') /\ k <= n_steps d' /\
             (dl_auto ddl = false -> k = n_accepted d')) /\
  n_steps d' <= budget cfg ddl /\
  n_accepted d' + n_rejected d' <= n_steps d' <= n_accepted d' + n_rejected d' + 1 /\
  (dl_auto ddl = false -> n_rejected d' = 0).
Proof.
  intros OK H. pose proof (C66_main fin cfg ops dir Inv OK _ _ _ _ _ _ H) as Q. simpl in Q.
  destruct Q as (Q1 & Q2 & Q3 & Q4).
  split; [exact Q1|]. repeat split; auto; destruct s; intuition lia.
Qed.

(** Success: all the attempts were either accepted or retried, and the run ended because the
    callback asked for it, or because the stop criterion holds at the final state, or because the
    budget was used up. *)
Theorem C66_success {S A} fin cfg (ops : solver_ops S A) (Inv : S -> Prop) ndim dir st ddl d d' :
  ops_ok ops dir Inv -> solve S A fin cfg ops ndim dir st ddl d = (d', Ok Success) ->
  n_steps d' = n_accepted d' + n_rejected d' /\
  (user_stop d' \/
   (1 <= n_steps d' /\ stop_now st (n_steps d' - 1) (d_u d') (d_l d') = Ok true) \/
   n_steps d' = budget cfg ddl).
Proof.
  intros OK H. pose proof (C66_main fin cfg ops dir Inv OK _ _ _ _ _ _ H) as Q. simpl in Q.
  destruct Q as (Q1 & Q2 & Q3 & Q4 & Q5). split; assumption.
Qed.

(** Failure: the status was reported by the last step, or too many trials failed in a row, or the
    stepsize became too small, or the budget was used up after a status that allows a retry. *)
Theorem C66_failure {S A} fin cfg (ops : solver_ops S A) (Inv : S -> Prop) ndim dir st ddl d d' s :
  ops_ok ops dir Inv -> s <> Success -> solve S A fin cfg ops ndim dir st ddl d = (d', Ok s) ->
  (n_steps d' = n_accepted d' + n_rejected d' + 1 /\
   ((exists e e', op_step ops (d_u d') (d_l d') st e = (e', Ok s)) \/
    (s = ContinuedFailure /\ c_n_cont_failure_max cfg <= w_n_cont_failure (dwork d')) \/
    (s = ContinuedRejection /\ c_n_cont_rejection_max cfg <= 0))) \/
  (n_steps d' = n_accepted d' + n_rejected d' /\
   ((s = SmallStepsize /\ (w_h (dwork d') < H_MIN)%R) \/ (try_again s = true /\ n_steps d' = budget cfg ddl))).
Proof.
  intros OK NS H. pose proof (C66_main fin cfg ops dir Inv OK _ _ _ _ _ _ H) as Q. simpl in Q.
  destruct Q as (Q1 & Q2 & Q3 & Q4).
  destruct s; try exact Q4. congruence.
Qed.

(** ** A concrete system: G(u, lambda) = u with one unknown *)
Definition ex_cfg (n_step n_fail : nat) (precise : bool) : config :=
  mkCfg Natural false precise 0.5 n_step n_fail 10 None 0.001 0.001 0.001 1000 true 2 2 2
        false true false false false false 0 1 10 1 false 1 1 1 1 1 1.
Definition ex_sys (upd : option (bool -> vec -> vec -> R -> R -> nat -> nat * res bool)) : system nat :=
  mkSys 1 1 SymNo
    (fun _ _ u a => (a, Ok u))
    (fun m g _ _ a => (a, Ok (m, g)))
    None (Some (fun a => a + 1)) None upd.
Definition ex_lin : linsolver unit := mkLS (fun _ _ => (tt, Ok tt)) (fun _ b => Ok b).
Definition ex_nat : natst unit :=
  mkNat 1 false [0%R] (mkCoo SymNo 1 1 0 1 [0] [0] [0%R]) [0%R] tt [0%R].
Definition ex_drv (c : config) : drv (natst unit) nat :=
  mkDrv (mkEnv ex_nat (work_new c 1) 0) [0%R] 0 None 0 0 0 0.
Definition ex_run c upd dir st ddl :=
  solve _ _ (fun _ => true) c (natural_ops unit nat (fun _ => true) c (ex_sys upd) ex_lin) 1 dir st ddl (ex_drv c).

(** comparisons of known numbers *)
Lemma H_MIN_val : (H_MIN = 1 / 10000000000)%R.
Proof. unfold H_MIN. simpl. field. Qed.
Ltac rnorm := cbv - [Rltb Rleb Reqb Rplus Rmult Rminus Ropp Rinv Rdiv Rabs Rmax Rmin sqrt IZR INR H_MIN atan powf Rlt Rle Rgt Rge].
Ltac rsolve :=
  rnorm;
  rewrite ?H_MIN_val in *; replace (1 * 1 - 1)%R with 0%R by ring; rewrite ?atan_0; unfold Rmax, Rmin, Rabs;
  repeat match goal with
         | |- context [Rcase_abs ?a] => destruct (Rcase_abs a); try lra
         | |- context [Rle_dec ?a ?b] =>
             lazymatch constr:((a, b)) with context [Rle_dec _ _] => fail | _ => destruct (Rle_dec a b); try lra end
         end; try lra.
Ltac rstep :=
  match goal with
  | |- context [Rltb ?a ?b] =>
      first [ let H := fresh in assert (H : (a < b)%R) by rsolve; rewrite (proj2 (Rltb_true a b) H); clear H
            | let H := fresh in assert (H : (b <= a)%R) by rsolve; rewrite (proj2 (Rltb_false a b) H); clear H ]
  | |- context [Rleb ?a ?b] =>
      first [ let H := fresh in assert (H : (a <= b)%R) by rsolve; rewrite (proj2 (Rleb_true a b) H); clear H
            | let H := fresh in assert (H : (b < a)%R) by rsolve; rewrite (proj2 (Rleb_false a b) H); clear H ]
  end.


Ltac rval s := eval cbv - [Rltb Rleb Reqb Rplus Rmult Rminus Ropp Rinv Rdiv Rabs Rmax Rmin sqrt IZR INR H_MIN atan powf] in s.

(** running a computation on known data *)
Lemma mbind_eval {E X Y} (m : M E X) (k : X -> M E Y) e e1 x r : m e = (e1, Ok x) -> k x e1 = r -> mbind m k e = r.
Proof. unfold mbind. intros ->. auto. Qed.
Lemma on_env_eval {S A X} (m : M (env S A) X) d e r : m (d_env d) = (e, r) -> on_env S A m d = (set_d_env e d, r).
Proof. unfold on_env. intros ->. reflexivity. Qed.
Lemma accept_eval {S A} (ops : solver_ops S A) d e u l r :
  op_accept ops (d_u d) (d_l d) (d_env d) = (e, Ok (u, l, r)) -> do_accept S A ops d = (set_d_env e (set_d_u u (set_d_l l d)), Ok r).
Proof. unfold do_accept. intros ->. reflexivity. Qed.
Ltac rprim := rnorm; repeat (rstep; cbv iota); reflexivity.
Ltac rev :=
  cbv beta zeta;
  lazymatch goal with
  | |- mbind _ _ _ = _ => eapply mbind_eval; [rev | rev]
  | |- on_env _ _ _ _ = _ => eapply on_env_eval; rev
  | |- do_accept _ _ _ _ = _ => eapply accept_eval; rev
  | |- match ?b with _ => _ end _ = _ =>
      let b' := rval b in
      let x := fresh "x" in
      let H := fresh "H" in
      eassert (H : b' = _) by (repeat (rstep; cbv iota beta delta [orb andb negb]); reflexivity);
      change b with b'; try rewrite H; clear H; cbv iota; rev
  | |- mloop (Datatypes.S _) _ _ _ _ = _ => cbn [mloop]; rev
  | |- mloop 0 _ _ _ _ = _ => cbn [mloop]; rev
  | |- mloop ?n _ _ _ _ = _ => let n' := rval n in change n with n'; rev
  | |- solve _ _ _ _ _ _ _ _ _ _ = _ => unfold solve; rev
  | |- fixed_body _ _ _ _ _ _ _ _ _ _ = _ => unfold fixed_body; rev
  | |- auto_body _ _ _ _ _ _ _ _ _ = _ => unfold auto_body; rev
  | |- check_precise _ _ _ _ _ _ = _ => unfold check_precise; rev
  | |- auto_finish _ _ _ _ _ _ _ _ _ = _ => unfold auto_finish; rev
  | |- op_step _ _ _ _ _ = _ => cbn [op_step natural_ops]; rev
  | |- op_accept _ _ _ _ = _ => cbn [op_accept natural_ops]; rev
  | |- op_reject _ _ = _ => cbn [op_reject natural_ops]; rev
  | |- op_initialize _ _ _ _ _ _ = _ => cbn [op_initialize natural_ops]; rev
  | |- nat_step _ _ _ _ _ _ _ _ _ _ = _ => unfold nat_step; rev
  | |- step_begin _ _ _ _ _ = _ => unfold step_begin; rev
  | |- iterations _ _ _ = _ => unfold iterations; rev
  | |- nat_iterate _ _ _ _ _ _ _ _ _ = _ => unfold nat_iterate; rev
  | |- after_solve _ _ _ _ _ _ _ _ = _ => unfold after_solve; rev
  | |- ?t = _ => rprim
  end.
Ltac rrun := unfold ex_run; rev.

(** non-vacuity: a run of the real method ends with the stop criterion *)
Example C66_run_example :
  exists d', ex_run (ex_cfg 1 10 false) None true (Steps 1) (ddl_constant 0.5) = (d', Ok Success) /\
             n_steps d' = 1 /\ n_accepted d' = 1 /\ stop_now (Steps 1) 0 (d_u d') (d_l d') = Ok true.
Proof.
  eexists. split. { rrun. } repeat split.
Qed.

(** FINDING: Success does not mean that the stop criterion was met: when n_step_max passes are used up
    the last status is returned, whatever the criterion says (solver.rs:214-329). *)
Theorem C66_success_unmet_refuted :
  ~ (forall cfg (sys : system nat) dir st ddl d' s,
       solve _ _ (fun _ => true) cfg (natural_ops unit nat (fun _ => true) cfg sys ex_lin) 1 dir st ddl (ex_drv cfg) = (d', Ok s) ->
       s = Success -> cb_of d' = None -> stop_now st (n_steps d' - 1) (d_u d') (d_l d') = Ok true).
Proof.
  intros H.
  assert (Q : exists d', ex_run (ex_cfg 1 10 false) None false (Steps 2) (ddl_constant 0.5) = (d', Ok Success) /\
                         cb_of d' = None /\ n_steps d' = 1).
  { eexists. split. { rrun. } split; reflexivity. }
  destruct Q as (d' & Q1 & Q2 & Q3).
  specialize (H _ _ _ _ _ _ _ Q1 eq_refl Q2). rewrite Q3 in H. discriminate.
Qed.

(** FINDING: the backup of the secondary state is not restored when the failed step is the one that
    ends the run (solver.rs:247-254 breaks before `reject`): the callback's change survives. *)
Definition ex_upd_err (_ : bool) (_ _ : vec) (_ _ : R) (a : nat) : nat * res bool := (a + 100, Err "no").
Theorem C66_restore_refuted :
  exists d', ex_run (ex_cfg 1 1 false) (Some ex_upd_err) true (Steps 1) (ddl_auto 0.5) = (d', Ok ContinuedFailure) /\
             e_a (d_env (ex_drv (ex_cfg 1 1 false))) = 0 /\ e_a (d_env d') = 100 /\ n_accepted d' = 0 /\ n_rejected d' = 0.
Proof. eexists. split. { rrun. } repeat split. Qed.

(** FINDING: with `precise` and a target component, a request of the update callback to terminate is
    turned into UnmetStopCriterion, which is retried (solver.rs:223-238). *)
Definition ex_upd_end (first : bool) (_ _ : vec) (_ _ : R) (a : nat) : nat * res bool :=
  (a + 1, Ok (negb first)).
Definition ex_sys1 : system nat :=
  mkSys 1 1 SymNo (fun _ _ u a => (a, Ok (map (fun x => x - 1)%R u))) (fun m g _ _ a => (a, Ok (m, g)))
    None None None (Some ex_upd_end).
Theorem C66_terminate_refuted :
  exists d', solve _ _ (fun _ => true) (ex_cfg 1 10 true)
               (natural_ops unit nat (fun _ => true) (ex_cfg 1 10 true) ex_sys1 ex_lin) 1 true (MaxCompU 0 0.5) (ddl_auto 0.5)
               (ex_drv (ex_cfg 1 10 true)) = (d', Ok UnmetStopCriterion) /\
             e_a (d_env d') = 2 /\ n_rejected d' = 1.
Proof. eexists. split. { rrun. } repeat split. Qed.

Print Assumptions C66_path.
Print Assumptions C66_counts.
Print Assumptions C66_success.
Print Assumptions C66_failure.
Print Assumptions natural_ok.
Print Assumptions arclength_ok.
Print Assumptions C66_success_unmet_refuted.
Print Assumptions C66_restore_refuted.
Print Assumptions C66_terminate_refuted.
