(** C66, C67: the driver does not panic, listed increments are walked through, and precise targets are not passed. *)
From Verif Require Import Nonlin_Drv_Thm Nonlin_Stop_Thm.
From Coq Require Import Reals Lra Lia.
Local Open Scope nat_scope.

(* ------------------------------------------------------------------ *)
(** * Specification *)

(** the fields of the workspace that the driver leaves to the methods *)
Definition same_payload (w w' : work) : Prop :=
  w_err w' = w_err w /\ w_u w' = w_u w /\ w_l w' = w_l w /\ w_gg w' = w_gg w /\ w_duds w' = w_duds w /\ w_dlds w' = w_dlds w /\ w_debug w' = w_debug w.

(** a method whose four functions do not panic in states that satisfy [I], and keep [I] *)
Record ops_safe {S A} (ops : solver_ops S A) (ndim : nat) (I : env S A -> Prop) : Prop := {
  sf_size : forall e, I e -> length (w_u (e_w e)) = ndim;
  sf_work : forall e w, I e -> same_payload (e_w e) w -> I (set_e_w w e);
  sf_init : forall h u l b e, I e -> length u = ndim -> snd (op_initialize ops h u l b e) <> Panic /\ I (fst (op_initialize ops h u l b e));
  sf_step : forall u l st e, I e -> length u = ndim -> snd (op_step ops u l st e) <> Panic /\ I (fst (op_step ops u l st e));
  sf_reject : forall e, I e -> snd (op_reject ops e) <> Panic /\ I (fst (op_reject ops e));
  sf_accept : forall u l e, I e -> length u = ndim -> snd (op_accept ops u l e) <> Panic /\ I (fst (op_accept ops u l e)) /\
    forall v l' r, snd (op_accept ops u l e) = Ok (v, l', r) -> length v = ndim /\ (0 <= r)%R }.

(** increment number i (from 0): the i-th of the list, or always the same *)
Definition increment (ddl : delta_lambda) (i : nat) : R := nth i (dl_list ddl) (dl_ini ddl).
Fixpoint sum_to (n : nat) (f : nat -> R) : R := match n with 0 => 0%R | S n => (sum_to n f + f n)%R end.
(** built by `constant` or `list` *)
Definition prescribed (ddl : delta_lambda) : Prop := (exists h, ddl = ddl_constant h) \/ (exists hs, ddl_list hs = Ok ddl).

(* ------------------------------------------------------------------ *)
(** * No panic *)
Definition safe {E X} (P : E -> Prop) (m : M E X) (Q : X -> E -> Prop) : Prop :=
  forall e, P e -> match m e with (e', Ok x) => Q x e' | (_, Err _) => True | (_, Panic) => False end.

Ltac nx := let x := fresh in intros x; cbv beta; clear x.
Lemma s_bind {E X Y} (m : M E X) (k : X -> M E Y) (P : E -> Prop) (Q' : X -> E -> Prop) (Q : Y -> E -> Prop) : safe P m Q' -> (forall x, safe (Q' x) (k x) Q) -> safe P (mbind m k) Q.
Proof. intros H1 H2 e He. specialize (H1 e He). unfold mbind. destruct (m e) as [e1 [x|s|]]; auto. exact (H2 x e1 H1). Qed.
Lemma s_ret {E X} (x : X) (P : E -> Prop) (Q : X -> E -> Prop) : (forall e, P e -> Q x e) -> safe P (ret x) Q.
Proof. intros H e He. exact (H e He). Qed.
Lemma s_lift {E X} (r : res X) (P : E -> Prop) (Q : X -> E -> Prop) : (forall e, P e -> match r with Ok x => Q x e | Err _ => True | Panic => False end) -> safe P (lift r) Q.
Proof. intros H e He. specialize (H e He). unfold lift. destruct r; exact H. Qed.
Lemma s_if {E X} (b : bool) (m1 m2 : M E X) P Q : (b = true -> safe P m1 Q) -> (b = false -> safe P m2 Q) -> safe P (if b then m1 else m2) Q.
Proof. destruct b; auto. Qed.
Lemma s_modify {E} (f : E -> E) (P : E -> Prop) (Q : unit -> E -> Prop) : (forall e, P e -> Q tt (f e)) -> safe P (modify f) Q.
Proof. intros H e He; exact (H e He). Qed.
Lemma s_get {E} (P : E -> Prop) (Q : E -> E -> Prop) : (forall e, P e -> Q e e) -> safe P get Q.
Proof. intros H e He; exact (H e He). Qed.
Lemma s_loop {E X} (body : nat -> X -> M E (bool * X)) (P : E -> Prop) : (forall i x, safe P (body i x) (fun _ => P)) ->
  forall n i x, safe P (mloop n i body x) (fun _ => P).
Proof.
  intros HB n. induction n as [|n IH]; intros i x; simpl; [apply s_ret; auto|].
  eapply s_bind; [apply HB|]. intros [b y]. destruct b; simpl; [apply s_ret; auto|apply IH].
Qed.

Section Safe.
Context {S A : Type} (fin : R -> bool) (cfg : config) (ops : solver_ops S A) (ndim : nat) (I : env S A -> Prop) (st : stop) (u0 : vec) (l0 : R).
Hypothesis OK : ops_safe ops ndim I.
Hypothesis SV : stop_valid st u0 l0.
Hypothesis U0 : length u0 = ndim.
Definition dsafe (d : drv S A) : Prop := I (d_env d) /\ length (d_u d) = ndim /\ d_out d = None.

Lemma s_mdw f : (forall w, same_payload w (f w)) -> safe dsafe (mdw S A f) (fun _ => dsafe).
Proof using OK. intros F d (H1 & H2 & H3). simpl. split; [|auto]. simpl. apply (sf_work _ _ _ OK); auto. Qed.
Lemma s_mdst f : safe dsafe (mdst S A f) (fun _ => dsafe).
Proof using OK. intros d (H1 & H2 & H3). simpl. split; [|auto]. simpl. apply (sf_work _ _ _ OK); auto. repeat split. Qed.
Lemma s_out : safe dsafe (output_step S A) (fun b d => b = false /\ dsafe d).
Proof using. intros d (H1 & H2 & H3). unfold output_step. rewrite H3. split; [reflexivity|split; auto]. Qed.
Lemma s_env {X} (m : M (env S A) X) : (forall e, I e -> snd (m e) <> Panic /\ I (fst (m e))) -> safe dsafe (on_env S A m) (fun _ => dsafe).
Proof using. intros H d (H1 & H2 & H3). unfold on_env. destruct (H _ H1) as [N K]. destruct (m (d_env d)) as [e [x|s|]]; simpl in *; auto. split; auto. Qed.
Lemma s_accept : safe dsafe (do_accept S A ops) (fun r d => (0 <= r)%R /\ dsafe d).
Proof using OK.
  intros d (H1 & H2 & H3). unfold do_accept. destruct (sf_accept _ _ _ OK (d_u d) (d_l d) (d_env d) H1 H2) as (N & K & V).
  destruct (op_accept ops (d_u d) (d_l d) (d_env d)) as [e [[[v l'] r]|s|]]; simpl in *; auto. destruct (V v l' r eq_refl) as [V1 V2]. split; auto. split; auto.
Qed.
Lemma s_now i : safe dsafe (d <~ get ;; lift (stop_now st i (d_u d) (d_l d))) (fun _ => dsafe).
Proof using SV U0.
  intros d H. destruct (C67_now st u0 l0 (d_u d) (d_l d) i SV) as (b & E & _); [destruct H as (_ & H & _); congruence|].
  unfold mbind, get, lift. simpl. rewrite E. exact H.
Qed.
Lemma s_fin : safe dsafe (d <~ get ;; lift (vall_finite fin (d_u d))) (fun _ => dsafe).
Proof using. intros d H. unfold mbind, get, lift, vall_finite. simpl. destruct (forallb fin (d_u d)); simpl; auto. Qed.
Lemma s_dw : safe dsafe (dw S A) (fun w d => dsafe d /\ w = e_w (d_env d)).
Proof using. intros d H. simpl. auto. Qed.

(** sequencing with a state read *)
Lemma s_get_step : safe dsafe (d <~ get ;; on_env S A (op_step ops (d_u d) (d_l d) st)) (fun _ => dsafe).
Proof using OK.
  intros d H. unfold mbind, get. apply (s_env (op_step ops (d_u d) (d_l d) st)); [|exact H]. intros e He. apply (sf_step _ _ _ OK); auto. apply H.
Qed.
Lemma assoc {E X Y Z} (m : M E X) (f : X -> M E Y) (g : Y -> M E Z) e : mbind m (fun x => mbind (f x) g) e = mbind (mbind m f) g e.
Proof using. unfold mbind. destruct (m e) as [e1 [x|s|]]; reflexivity. Qed.
Lemma s_assoc {E X Y Z} (m : M E X) (f : X -> M E Y) (g : Y -> M E Z) P Q : safe P (mbind (mbind m f) g) Q -> safe P (mbind m (fun x => mbind (f x) g)) Q.
Proof using. intros H e He. rewrite assoc. exact (H e He). Qed.

Lemma s_fixed ddl i s0 : safe dsafe (fixed_body S A fin cfg ops st ddl i s0) (fun _ => dsafe).
Proof using OK SV U0.
  unfold fixed_body. eapply s_bind; [apply s_mdst|]. nx. apply s_assoc. eapply s_bind; [apply s_get_step|]. intros s.
  apply s_if; nx; [apply s_ret; auto|].
  eapply s_bind; [apply s_mdst|]. nx. eapply s_bind; [apply s_accept|]. intros r.
  eapply s_bind with (Q' := fun _ => dsafe).
  { apply s_if; intros Hi; [|apply s_ret; intros e [_ H]; exact H]. apply Nat.ltb_lt in Hi.
    eapply s_bind with (Q' := fun _ => dsafe); [apply s_lift; rewrite (vget_ok _ _ 0%R) by auto; intros e [_ H]; exact H|]. intros nx.
    apply s_if; nx; [apply s_lift; auto|]. destruct (c_method cfg).
    - eapply s_bind; [apply s_dw|]. intros w. cbv zeta. apply s_if; nx; [apply s_lift; auto|]. intros e [H _]. revert e H. apply s_mdw. intros; repeat split.
    - apply s_mdw. intros; repeat split. }
  nx. eapply s_bind; [apply s_mdw; intros; repeat split|]. nx. apply s_assoc. eapply s_bind; [apply s_fin|]. nx.
  eapply s_bind; [apply s_out|]. intros b. intros e [-> H]. revert e H. 
  apply s_assoc. eapply s_bind; [apply s_now|]. intros b. apply s_ret; auto.
Qed.

Lemma s_check s : safe dsafe (check_precise S A cfg st s) (fun _ => dsafe).
Proof using OK SV U0.
  unfold check_precise. apply s_if; nx; [|apply s_ret; auto]. destruct (stop_u_comp st) as [[[j u1] mn]|] eqn:E; [|apply s_ret; auto].
  assert (Hj : j < ndim). { rewrite <- U0. destruct st; simpl in *; inversion E; subst; apply SV. }
  eapply s_bind; [apply s_dw|]. intros w. eapply s_bind with (Q' := fun _ => dsafe).
  - apply s_lift. intros d [H ->]. rewrite (vget_ok _ _ 0%R) by (rewrite (sf_size _ _ _ OK) by apply H; auto). exact H.
  - intros ui. apply s_if; nx; apply s_ret; auto.
Qed.

Lemma s_adapt rdiff : (0 <= rdiff)%R -> safe dsafe (adapt_stepsize S A cfg rdiff) (fun _ => dsafe).
Proof using.
  intros Hr. unfold adapt_stepsize. eapply s_bind with (Q' := fun _ => dsafe); [apply s_get; auto|]. intros d. cbv zeta.
  eapply s_bind with (Q' := fun _ => dsafe); [apply s_lift; intros e H; unfold assert_; rewrite (proj2 (Rleb_true _ _) Hr); exact H|]. nx.
  do 4 (eapply s_bind with (Q' := fun _ => dsafe); [apply s_modify; intros e (H1 & H2 & H3); split; auto|]; nx). apply s_ret; auto.
Qed.

Lemma s_finish i s : safe dsafe (auto_finish S A fin cfg ops st i s) (fun _ => dsafe).
Proof using OK SV U0.
  unfold auto_finish. apply s_if; nx.
  - eapply s_bind; [apply s_mdst|]. nx. eapply s_bind; [apply s_mdw; intros; repeat split|]. nx.
    eapply s_bind; [apply s_env; apply (sf_reject _ _ _ OK)|]. nx. eapply s_bind; [apply s_mdw; intros; repeat split|]. nx. apply s_ret; auto.
  - eapply s_bind; [apply s_mdst|]. nx. eapply s_bind; [apply s_accept|]. intros r. intros e [Hr H]. revert e H.
    apply s_assoc. eapply s_bind; [apply s_fin|]. nx.
    eapply s_bind; [apply s_dw|]. intros w. intros e [H _]. revert e H. apply s_if; nx; [apply s_ret; auto|].
    eapply s_bind; [apply s_adapt; auto|]. intros h. eapply s_bind; [apply s_dw|]. intros w'. intros e [H _]. revert e H. cbv zeta.
    eapply s_bind; [apply s_mdw; intros; repeat split|]. nx. eapply s_bind; [apply s_mdst|]. nx.
    do 4 (eapply s_bind; [apply s_mdw; intros; repeat split|]; nx).
    eapply s_bind; [apply s_out|]. intros b. intros e [-> H]. revert e H. apply s_now.
Qed.

Lemma s_auto i s0 : safe dsafe (auto_body S A fin cfg ops st i s0) (fun _ => dsafe).
Proof using OK SV U0.
  unfold auto_body. eapply s_bind; [apply s_mdst|]. nx. apply s_assoc. eapply s_bind; [apply s_get_step|]. intros s.
  eapply s_bind; [apply s_check|]. intros s'. apply s_if; nx; [apply s_ret; auto|].
  eapply s_bind with (Q' := fun _ => dsafe).
  { apply s_if; nx; [|apply s_ret; auto]. eapply s_bind; [apply s_mdw; intros; repeat split|]. nx. apply s_mdw; intros; repeat split. }
  nx. eapply s_bind; [apply s_dw|]. intros w. intros e [H _]. revert e H.
  apply s_if; nx; [apply s_ret; auto|]. apply s_if; nx; [apply s_ret; auto|].
  eapply s_bind; [apply s_finish|]. intros b. apply s_if; nx; [apply s_ret; auto|].
  eapply s_bind; [apply s_dw|]. intros w'. intros e [H _]. revert e H. apply s_if; nx; apply s_ret; auto.
Qed.
End Safe.

(** `solve` does not panic if the functions of the method do not, whatever the increments, the stop criterion and the outcome of the steps (no output object) *)
Theorem C66_no_panic {S A} fin cfg (ops : solver_ops S A) (I : env S A -> Prop) ndim dir st ddl d : ops_safe ops ndim I -> I (d_env d) -> d_out d = None ->
  snd (solve S A fin cfg ops ndim dir st ddl d) <> Panic.
Proof.
  intros OK HI HO. assert (G : forall x : drv S A * res status, (let '(_, r) := x in r <> Panic) -> snd x <> Panic) by (intros [? ?]; auto). apply G. clear G.
  unfold solve, mbind at 1, get at 1. destruct (negb (length (d_u d) =? ndim)) eqn:E; [discriminate|]. apply negb_false_iff, Nat.eqb_eq in E.
  destruct (C67_validate st (d_u d) (d_l d)) as [V NP]. unfold mbind at 1, lift at 1. destruct (stop_validate st (d_u d) (d_l d)) as [[]|m|]; [|discriminate|congruence].
  assert (SV := proj1 V eq_refl). clear V NP.
  match goal with |- let '(_, r) := ?m d in _ => assert (T : safe (dsafe ndim I) m (fun _ => dsafe ndim I)) end.
  { eapply s_bind; [apply s_mdw with (ops := ops); auto; intros; repeat split|]. nx.
    eapply s_bind with (Q' := fun _ => dsafe ndim I).
    { apply s_lift. intros e H. unfold ddl_initial. cbv zeta. destruct (Rleb _ H_MIN); auto. }
    intros ini. eapply s_bind; [apply s_env; intros e He; apply (sf_init _ _ _ OK); auto|]. nx.
    eapply s_bind; [apply s_out|]. intros b. intros e [-> H]. revert e H.
    apply s_if; nx; apply s_loop; intros i x; [eapply s_fixed|eapply s_auto]; eauto. }
  specialize (T d (conj HI (conj E HO))). match goal with |- let '(_, r) := ?m d in _ => destruct (m d) as [d' [x|m'|]] end; congruence.
Qed.

(* ------------------------------------------------------------------ *)
(** * Listed increments *)
Section Listed.
Context {F A : Type} (fin : R -> bool) (cfg : config) (sys : system A) (lin : linsolver F) (dir : bool) (st : stop).
Hypothesis ST : stop_lambda st = None.
Notation ops := (natural_ops F A fin cfg sys lin).

(** without a lambda target a step goes exactly one increment further *)
Lemma nat_step_increment u l e e' s : nat_step F A fin cfg sys lin u l st e = (e', Ok s) -> s = Success ->
  w_l (e_w e') = (l + n_sign0 (e_s e) * w_h (e_w e))%R /\ w_h (e_w e') = w_h (e_w e).
Proof using ST.
  intros H ->. unfold nat_step in H. apply mbind_ok in H. destruct H as (e1 & [] & Em & H).
  assert (K1 : n_sign0 (e_s e1) = n_sign0 (e_s e) /\ w_h (e_w e1) = w_h (e_w e)).
  { assert (K : keeps (fun x => n_sign0 (e_s x) = n_sign0 (e_s e) /\ w_h (e_w x) = w_h (e_w e)) (step_begin cfg sys (S := natst F) u l)).
    { unfold step_begin. kp ltac:(intros; match goal with Q : _ /\ _ |- _ => exact Q end). }
    specialize (K e (conj eq_refl eq_refl)). rewrite Em in K. exact K. }
  apply mbind_ok in H. destruct H as (e0 & [] & Em0 & H). cbv beta in H.
  unfold nat_lambda in Em0. rewrite ST in Em0. unfold mbind, gets, modw, getw, modify, ret in Em0. simpl in Em0. injection Em0 as <-.
  match type of H with ?m ?e2 = _ => assert (K : keeps (fun x => w_l (e_w x) = w_l (e_w e2) /\ w_h (e_w x) = w_h (e_w e2)) m); [|specialize (K e2 (conj eq_refl eq_refl)); rewrite H in K] end.
  { unfold nat_predict, nat_jac, nat_solve, write_matrix, push_debug, iterations, nat_iterate, after_solve, is_conv, nat_jac, nat_solve, write_matrix.
    kp ltac:(intros; match goal with Q : _ /\ _ |- _ => exact Q end);
    intros e2 He; try (destruct (y_jac sys _ _ _ _ _) as [a [[m g]|m|]]; exact He);
    destruct (ls_factorize lin _ _) as [f r]; exact He. }
  simpl in K. destruct K as [-> ->]. destruct K1 as [-> ->]. auto.
Qed.

Variables (ddl : delta_lambda) (l0 : R).
Definition sgn : R := if dir then 1%R else (-1)%R.
(** before pass i *)
Record walk (i : nat) (d : drv (natst F) A) : Prop := {
  k_dir : nat_inv dir (e_s (d_env d));
  k_h : i < budget cfg ddl -> w_h (dwork d) = increment ddl i;
  k_l : d_l d = (l0 + sgn * sum_to i (increment ddl))%R;
  k_n : n_accepted d = i }.
Definition walked (d : drv (natst F) A) : Prop := d_l d = (l0 + sgn * sum_to (n_accepted d) (increment ddl))%R.

Lemma walk_pass i s0 d d' b s : prescribed ddl -> c_method cfg = Natural -> i < budget cfg ddl -> walk i d ->
  fixed_body _ A fin cfg ops st ddl i s0 d = (d', Ok (b, s)) -> if b then walked d' else walk (i + 1) d'.
Proof using ST.
  intros PD CM Hi W H. unfold fixed_body in H.
  apply mbind_ok in H. destruct H as (d1 & [] & E & H). unfold mdst, modst, on_env, modw, modify in E. simpl in E. injection E as <-.
  apply mbind_ok in H. destruct H as (d2 & x & E & H). apply get_inv in E. destruct E as [-> ->].
  apply mbind_ok in H. destruct H as (d3 & s1 & E & H). unfold on_env in E. simpl in E.
  destruct (nat_step F A fin cfg sys lin (d_u d) (d_l d) st _) as [e1 r] eqn:ES. injection E as <- ->.
  destruct W as [W1 W2 W3 W4]. specialize (W2 Hi).
  assert (OK := natural_ok fin cfg sys lin dir).
  assert (FR := ok_step _ _ _ OK (d_u d) (d_l d) st (set_e_w (set_w_stats (set_st_n_steps (st_n_steps (w_stats (e_w (d_env d))) + 1) (w_stats (e_w (d_env d)))) (e_w (d_env d))) (d_env d))).
  assert (KI := ok_inv_step _ _ _ OK (d_u d) (d_l d) st (set_e_w (set_w_stats (set_st_n_steps (st_n_steps (w_stats (e_w (d_env d))) + 1) (w_stats (e_w (d_env d)))) (e_w (d_env d))) (d_env d)) W1).
  simpl in FR, KI. rewrite ES in FR, KI. simpl in FR, KI. unfold same_flags in FR. simpl in FR. destruct FR as (F1 & F2 & F3 & F4 & F5 & F6 & F7 & F8 & F9 & F10).
  unfold n_accepted, dwork in *.
  destruct (failure s1) eqn:Fs.
  { apply ret_inv in H. destruct H as [-> H]. injection H as -> ->. unfold walked, n_accepted, dwork. simpl.
    replace (st_n_accepted (w_stats (e_w e1))) with i by congruence. exact W3. }
  assert (s1 = Success) by (destruct s1; simpl in Fs; auto; discriminate). subst s1.
  destruct (nat_step_increment _ _ _ _ _ ES eq_refl) as [L1 L2]. simpl in L1, L2.
  apply mbind_ok in H. destruct H as (d4 & [] & E & H). unfold mdst, modst, on_env, modw, modify in E. simpl in E. injection E as <-.
  apply mbind_ok in H. destruct H as (d5 & rd & E & H). unfold do_accept in E. simpl in E.
  match type of E with (match nat_accept F A cfg sys ?u ?l ?x with _ => _ end) = _ =>
    assert (FA := ok_accept_frame _ _ _ OK u l x); assert (HA := ok_accept_h _ _ _ OK u l x); assert (VA := ok_accept _ _ _ OK u l x);
    assert (IA := ok_inv_accept _ _ _ OK u l x KI); simpl in FA, HA, VA, IA; destruct (nat_accept F A cfg sys u l x) as [e2 [[[v l'] rr]|m|]] eqn:EA; try discriminate E end.
  injection E as <- <-. destruct (VA _ _ _ _ eq_refl) as [-> ->]. simpl in FA, HA, IA, L1. unfold same_flags in FA. simpl in FA.
  destruct FA as (G1 & G2 & G3 & G4 & G5 & G6 & G7 & G8 & G9 & G10).
  assert (NA : st_n_accepted (w_stats (e_w e2)) = i + 1) by congruence.
  assert (NL : w_l (e_w e1) = (l0 + sgn * sum_to (i + 1) (increment ddl))%R).
  { rewrite L1, W2, W3. unfold nat_inv in W1. rewrite W1. rewrite Nat.add_1_r. simpl. fold sgn. ring. }
  assert (NI : nat_inv dir (e_s e2)) by exact IA.
  apply mbind_ok in H. destruct H as (d6 & [] & E & H).
  assert (D6 : d_l d6 = (l0 + sgn * sum_to (i + 1) (increment ddl))%R /\ st_n_accepted (w_stats (e_w (d_env d6))) = i + 1 /\ nat_inv dir (e_s (d_env d6)) /\
               (i + 1 < budget cfg ddl -> w_h (e_w (d_env d6)) = increment ddl (i + 1))).
  { unfold budget in *. destruct (dl_auto ddl) eqn:DA; [exfalso; destruct PD as [[h ->]|[[|h hs] P]]; simpl in *; try discriminate; injection P as <-; discriminate DA|].
    destruct (Nat.ltb_spec (i + 1) (length (dl_list ddl))) as [L|L].
    - rewrite CM in E. rewrite (vget_ok _ _ 0%R) in E by auto. apply mbind_ok in E. destruct E as (dd & nx & E1 & E). apply lift_inv in E1. destruct E1 as [-> E1]. injection E1 as <-.
      destruct (Rleb _ H_MIN); [discriminate E|]. unfold mdw, on_env, modw, modify in E. simpl in E. injection E as <-. simpl. splits; auto.
      nx. unfold increment. apply nth_indep. exact L.
    - apply ret_inv in E. destruct E as [-> _]. simpl. splits; auto. rewrite HA, L2, W2. intros Hb. unfold increment.
      destruct (dl_list ddl) as [|a t] eqn:DL; [destruct i; reflexivity|]. simpl in *. lia. }
  destruct D6 as (Q1 & Q2 & Q3 & Q4).
  apply mbind_ok in H. destruct H as (d7 & [] & E2 & H). unfold mdw, on_env, modw, modify in E2. simpl in E2. injection E2 as <-.
  apply mbind_ok in H. destruct H as (d8 & x & E2 & H). apply get_inv in E2. destruct E2 as [-> ->].
  apply mbind_ok in H. destruct H as (d9 & [] & E2 & H). apply lift_inv in E2. destruct E2 as [-> _].
  apply mbind_ok in H. destruct H as (d10 & bb & E2 & H). apply output_same in E2. simpl in E2. destruct E2 as (_ & O2 & O3 & _ & _ & O6). unfold dwork in O3. simpl in O3.
  assert (D10 : walked d10 /\ walk (i + 1) d10).
  { split; [unfold walked|constructor]; unfold n_accepted, dwork; rewrite ?O2, ?O3, ?O6; simpl; rewrite ?Q2; auto. }
  destruct bb.
  - apply ret_inv in H. destruct H as [-> H]. injection H as -> ->. apply D10.
  - apply mbind_ok in H. destruct H as (d11 & x & E2 & H). apply get_inv in E2. destruct E2 as [-> ->].
    apply mbind_ok in H. destruct H as (d12 & b2 & E2 & H). apply lift_inv in E2. destruct E2 as [-> _].
    apply ret_inv in H. destruct H as [-> H]. injection H as -> ->. destruct b2; apply D10.
Qed.
End Listed.

(** natural method, prescribed increments, no lambda target: lambda ends at the start plus the increments of the accepted steps, in order, in the chosen direction *)
Theorem C67_listed {F A} fin cfg (sys : system A) (lin : linsolver F) ndim dir st ddl d d' s :
  c_method cfg = Natural -> prescribed ddl -> stop_lambda st = None ->
  solve _ _ fin cfg (natural_ops F A fin cfg sys lin) ndim dir st ddl d = (d', Ok s) ->
  d_l d' = (d_l d + (if dir then 1 else -1) * sum_to (n_accepted d') (increment ddl))%R.
Proof.
  intros CM PD ST H. unfold solve in H.
  apply mbind_ok in H. destruct H as (d1 & x & E & H). apply get_inv in E. destruct E as [-> ->].
  destruct (negb _); [discriminate H|]. apply mbind_ok in H. destruct H as (d2 & [] & E & H). apply lift_inv in E. destruct E as [-> _].
  apply mbind_ok in H. destruct H as (d3 & [] & E & H). unfold mdw, on_env, modw, modify in E. simpl in E. injection E as <-.
  apply mbind_ok in H. destruct H as (d4 & ini & E & H). apply lift_inv in E. destruct E as [-> EI].
  assert (EI' : ini = dl_ini ddl). { unfold ddl_initial in EI. destruct st; simpl in *; try discriminate ST; destruct (Rleb _ _); inversion EI; auto. }
  apply mbind_ok in H. destruct H as (d5 & [] & E & H). unfold on_env, nat_initialize, mbind, mods, modw, modify in E. simpl in E. injection E as <-.
  apply mbind_ok in H. destruct H as (d6 & b & E & H). apply output_same in E. simpl in E. destruct E as (_ & O2 & O3 & _ & _ & O6). unfold dwork in O3. simpl in O3.
  assert (DA : dl_auto ddl = false) by (destruct PD as [[h ->]|[[|h hs] P]]; simpl in *; try discriminate; auto; injection P as <-; auto).
  assert (W : walk cfg dir ddl (d_l d) 0 d6).
  { constructor; unfold n_accepted, dwork; rewrite ?O2, ?O3, ?O6; simpl; auto.
    - reflexivity.
    - nx. rewrite EI'. destruct PD as [[h ->]|[[|h hs] P]]; simpl in *; try discriminate; auto. injection P as <-. reflexivity.
    - ring. }
  change (walked dir ddl (d_l d) d').
  destruct b.
  { apply ret_inv in H. destruct H as [-> _]. destruct W as [W1 W2 W3 W4]. unfold walked. rewrite W4. exact W3. }
  rewrite DA in H. simpl in H.
  assert (BU : (if 0 <? length (dl_list ddl) then length (dl_list ddl) else c_n_step_max cfg) = budget cfg ddl) by (unfold budget; rewrite DA; destruct (dl_list ddl); reflexivity).
  rewrite BU in H. clear BU O2 O3 O6.
  assert (T := @t_loop (drv (natst F) A) status (fixed_body _ A fin cfg (natural_ops F A fin cfg sys lin) st ddl) (fun i _ e => walk cfg dir ddl (d_l d) i e)
                (fun _ e => walked dir ddl (d_l d) e) (fun _ => True) (budget cfg ddl) 0 Success).
  specialize (fun A B => T A B d6 W). rewrite H in T. apply T.
  - intros j y Hj e He. destruct (fixed_body _ _ _ _ _ _ _ _ _ _) as [e' [[b' s']|m|]] eqn:EB; auto. simpl.
    eapply walk_pass in EB; eauto. lia.
  - intros y e [W1 W2 W3 W4]. unfold walked. rewrite W4. exact W3.
Qed.

(* ------------------------------------------------------------------ *)
(** * Precise targets *)

(** u has not passed the target component by more than 1e-10 *)
Definition not_passed (st : stop) (u : vec) : Prop :=
  match st with
  | MinCompU i u1 => (u1 - H_MIN <= nth i u 0)%R
  | MaxCompU i u1 => (nth i u 0 <= u1 + H_MIN)%R
  | _ => True
  end.

Section Precise.
Context {S A : Type} (fin : R -> bool) (cfg : config) (ops : solver_ops S A) (dir : bool) (Inv : S -> Prop) (st : stop).
Hypothesis OK : ops_ok ops dir Inv.
Hypothesis PR : c_precise cfg = true.
Notation G := (fun d : drv S A => not_passed st (d_u d)).
Notation G2 := (fun d : drv S A => not_passed st (d_u d) /\ not_passed st (w_u (dwork d))).

Lemma p_mdw f : (forall w, w_u (f w) = w_u w) -> triple G2 (mdw S A f) (fun _ => G2) G.
Proof using. intros F d [H1 H2]. simpl. split; auto. unfold dwork. simpl. rewrite F. exact H2. Qed.
Lemma p_env {X} (m : M (env S A) X) : triple G (on_env S A m) (fun _ => G) G.
Proof using. intros d H. unfold on_env. destruct (m (d_env d)) as [e [x|s|]]; exact H. Qed.
Lemma p_accept : triple G2 (do_accept S A ops) (fun _ => G) G.
Proof using OK.
  intros d [H1 H2]. unfold do_accept. destruct (op_accept ops (d_u d) (d_l d) (d_env d)) as [e [[[v l'] r]|s|]] eqn:E; auto.
  destruct (ok_accept _ _ _ OK _ _ _ _ _ _ _ E) as [-> _]. exact H2.
Qed.
Lemma p_out : triple G (output_step S A) (fun _ => G) G.
Proof using. intros d H. destruct (output_step S A d) as [d' r] eqn:E. apply output_same in E. destruct E as (E & _). cbv beta in *. rewrite <- E in H. destruct r; exact H. Qed.
Lemma p_lift {X} (r : res X) (P : drv S A -> Prop) : (forall d, P d -> G d) -> triple P (lift r) (fun _ => P) G.
Proof using. intros Q. apply t_lift. intros d H. destruct r; auto. Qed.
Lemma p_adapt r : triple G (adapt_stepsize S A cfg r) (fun _ => G) G.
Proof using.
  unfold adapt_stepsize. eapply t_bind with (Q' := fun _ => G); [apply t_get; auto|]. intros d. cbv zeta.
  eapply t_bind with (Q' := fun _ => G); [apply p_lift; auto|]. nx.
  do 4 (eapply t_bind with (Q' := fun _ => G); [apply t_modify; intros e H; exact H|]; nx). apply t_ret; auto.
Qed.
Lemma p_dw (P : drv S A -> Prop) : triple P (dw S A) (fun _ => P) G.
Proof using. intros d H. exact H. Qed.
Lemma p_get (P : drv S A -> Prop) : triple P get (fun _ => P) G.
Proof using. intros d H. exact H. Qed.

Lemma p_check s : triple G (check_precise S A cfg st s) (fun s' d => G d /\ (s' = Success -> G2 d)) G.
Proof using PR.
  intros d H. unfold check_precise. rewrite PR. destruct st as [i u1|i u1|a b c e|l1|l1|n]; simpl in *; auto;
    unfold mbind, dw, lift; simpl; (destruct (vget (w_u (e_w (d_env d))) i) as [ui|m|] eqn:E; auto);
    (assert (EN : nth i (w_u (dwork d)) 0%R = ui) by (unfold vget, dwork in *; destruct (nth_error _ i) eqn:NE; [|discriminate]; injection E as ->; apply nth_error_nth; exact NE)).
  - destruct (Rltb_spec ui (u1 - H_MIN)); simpl; (split; [exact H|]); [discriminate|]. nx. split; auto. rewrite EN. lra.
  - destruct (Rltb_spec (u1 + H_MIN) ui); simpl; (split; [exact H|]); [discriminate|]. nx. split; auto. rewrite EN. lra.
Qed.

Lemma p_finish i s : triple (fun d => G d /\ (s = Success -> G2 d)) (auto_finish S A fin cfg ops st i s) (fun _ => G) G.
Proof using OK.
  assert (MD : forall f, triple G (mdw S A f) (fun _ => G) G) by (intros; apply p_env).
  assert (MS : forall f, triple G (mdst S A f) (fun _ => G) G) by (intros; apply p_env).
  unfold auto_finish. apply t_if; intros Fs.
  - eapply t_pre; [intros e [H _]; exact H|]. eapply t_bind; [apply MS|]. nx. eapply t_bind; [apply MD|]. nx.
    eapply t_bind; [apply p_env|]. nx. eapply t_bind; [apply MD|]. nx. apply t_ret; auto.
  - assert (s = Success) by (destruct s; simpl in Fs; auto; discriminate).
    eapply t_pre with (P' := G2); [intros e [_ H1]; auto|]. eapply t_bind; [apply (p_mdw (fun w => _)); reflexivity|]. nx.
    eapply t_bind; [apply p_accept|]. intros r. eapply t_bind; [apply p_get|]. intros d. eapply t_bind; [apply p_lift; auto|]. nx.
    eapply t_bind; [apply p_dw|]. intros w. apply t_if; nx; [apply t_ret; auto|].
    eapply t_bind; [apply p_adapt|]. intros h. eapply t_bind; [apply p_dw|]. intros w'. cbv zeta.
    eapply t_bind; [apply MD|]. nx. eapply t_bind; [apply MS|]. nx.
    do 4 (eapply t_bind; [apply MD|]; nx). eapply t_bind; [apply p_out|]. intros b. apply t_if; nx; [apply t_ret; auto|].
    eapply t_bind; [apply p_get|]. intros d'. apply p_lift; auto.
Qed.

Lemma p_auto i s0 : triple G (auto_body S A fin cfg ops st i s0) (fun _ => G) G.
Proof using OK PR.
  unfold auto_body. eapply t_bind; [apply (p_env (modst _))|]. nx. eapply t_bind; [apply p_get|]. intros d.
  eapply t_bind; [apply p_env|]. intros s. eapply t_bind; [apply p_check|]. intros s'. apply t_if; nx; [apply t_ret; intros e [H _]; exact H|].
  eapply t_bind with (Q' := fun _ d => G d /\ (s' = Success -> G2 d)).
  { apply t_if; intros Fs; [|apply t_ret; auto]. eapply t_pre with (P' := G); [intros e [H _]; exact H|].
    assert (N : s' <> Success) by (intros ->; discriminate Fs).
    eapply t_bind; [apply (p_env (modw _))|]. nx. eapply t_post; [apply (p_env (modw _))|intros; split; auto; intros; contradiction|auto]. }
  nx. eapply t_bind; [apply p_dw|]. intros w. apply t_if; nx; [apply t_ret; intros e [H _]; exact H|]. apply t_if; nx; [apply t_ret; intros e [H _]; exact H|].
  eapply t_bind; [apply p_finish|]. intros b. apply t_if; nx; [apply t_ret; auto|].
  eapply t_bind; [apply p_dw|]. intros w'. apply t_if; nx; apply t_ret; auto.
Qed.
End Precise.

(** automatic steps with precise targets (either method): whatever the outcome, u has not passed the target component *)
Theorem C67_precise {S A} fin cfg (ops : solver_ops S A) dir (Inv : S -> Prop) ndim st ddl d d' r : ops_ok ops dir Inv ->
  c_precise cfg = true -> dl_auto ddl = true -> stop_valid st (d_u d) (d_l d) ->
  solve S A fin cfg ops ndim dir st ddl d = (d', r) -> not_passed st (d_u d').
Proof.
  intros OK PR DA V H. pose proof H_MIN_pos.
  assert (V0 : not_passed st (d_u d)) by (destruct st; simpl in *; auto; lra).
  assert (T : triple (fun e => not_passed st (d_u e)) (solve S A fin cfg ops ndim dir st ddl) (fun _ e => not_passed st (d_u e)) (fun e => not_passed st (d_u e))).
  { unfold solve. eapply t_bind; [apply p_get|]. intros d0. apply t_if; nx; [apply p_lift; auto|].
    eapply t_bind; [apply p_lift; auto|]. nx. eapply t_bind; [apply p_env|]. nx. eapply t_bind; [apply p_lift; auto|]. intros ini.
    eapply t_bind; [apply p_env|]. nx. eapply t_bind; [apply p_out|]. intros b. apply t_if; nx; [apply t_ret; auto|]. rewrite DA. simpl.
    apply t_loop with (I := fun _ _ e => not_passed st (d_u e)); auto. intros j y _. eapply t_post; [eapply p_auto; eassumption| |auto]. intros [[] x] e He; exact He. }
  specialize (T d V0). rewrite H in T. destruct r; exact T.
Qed.

(** the methods of the library: the theorem applies to both *)
Theorem C67_precise_natural {F A} fin cfg (sys : system A) (lin : linsolver F) ndim dir st ddl d d' r :
  c_precise cfg = true -> dl_auto ddl = true -> stop_valid st (d_u d) (d_l d) ->
  solve _ _ fin cfg (natural_ops F A fin cfg sys lin) ndim dir st ddl d = (d', r) -> not_passed st (d_u d').
Proof. intros. eapply C67_precise; eauto. apply natural_ok. Qed.
Theorem C67_precise_arclength {F A} fin cfg (sys : system A) (lin : linsolver F) ndim dir st ddl d d' r :
  c_precise cfg = true -> dl_auto ddl = true -> stop_valid st (d_u d) (d_l d) ->
  solve _ _ fin cfg (arclength_ops F A fin cfg sys lin) ndim dir st ddl d = (d', r) -> not_passed st (d_u d').
Proof. intros. eapply C67_precise; eauto. apply arclength_ok. Qed.

(* ------------------------------------------------------------------ *)
(** * Examples *)

(** a method that moves lambda by the stepsize and leaves u alone *)
Definition drift_ops : solver_ops unit unit :=
  mkOps (fun h _ _ _ => modw (set_w_h h))
        (fun u l _ => modw (set_w_u u) ;;; modw (fun w => set_w_l (l + w_h w)%R w) ;;; ret Success)
        (fun _ _ => w <~ getw ;; ret (w_u w, w_l w, 0%R))
        (ret tt).
Lemma drift_safe n : ops_safe drift_ops n (fun e => length (w_u (e_w e)) = n).
Proof.
  constructor; simpl; auto.
  - intros e w H (_ & E & _). rewrite E. exact H.
  - intros. split; [discriminate|auto].
  - intros. split; [discriminate|auto].
  - intros. split; [discriminate|auto].
  - intros u l e H _. splits; [discriminate|auto|]. intros v l' r E. injection E as <- <- <-. split; [auto|lra].
Qed.
Example C66_no_panic_example :
  ops_safe drift_ops 1 (fun e => length (w_u (e_w e)) = 1) /\ length (w_u (work_new (ex_cfg 5 10 false) 1)) = 1.
Proof. split; [apply drift_safe|reflexivity]. Qed.
Example C67_listed_example :
  prescribed (mkDdl false 0.5 [0.5; 0.25]%R) /\
  exists d', ex_run (ex_cfg 5 10 false) None true (Steps 5) (mkDdl false 0.5 [0.5; 0.25]%R) = (d', Ok Success) /\ n_accepted d' = 2.
Proof. split; [right; exists [0.5; 0.25]%R; reflexivity|]. eexists. split. { rrun. } reflexivity. Qed.
Example C67_precise_example :
  stop_valid (MaxCompU 0 0.5) [0%R] 0 /\ c_precise (ex_cfg 5 10 true) = true /\ dl_auto (ddl_auto 0.5) = true.
Proof. splits; auto. simpl. split; [lia|lra]. Qed.
Print Assumptions C66_no_panic.
Print Assumptions C67_listed.
Print Assumptions C67_precise.
Print Assumptions C67_precise_natural.
Print Assumptions C67_precise_arclength.
